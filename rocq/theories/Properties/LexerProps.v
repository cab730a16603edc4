(** C30: lexing recovers the token sequence, and terminates. *)
From Coq Require Import String Ascii.
From Verif.Front Require Import Lexer LexSpec LexProofs LexProofs2.
Open Scope Z_scope.

(** Every sequence of well-formed tokens, separated by any white space, line splices and comments, reads
    back as the same sequence, whatever macros are defined; gaps may be empty where neighbours do
    not run together. *)
Theorem C30_roundtrip_partial : forall find_alias l,
  Forall wf_lexeme (map fst l) -> Forall (Forall wf_gap) (map snd l) -> separated l ->
  tokens find_alias (source l) = Some (map (fun x => meaning find_alias (fst x)) l).
Proof.
  intros al l W Wg Sp. unfold tokens. apply (lex_all_ok al l _ []); auto.
  clear Wg Sp. unfold source. rewrite app_length. cbn [List.length].
  assert (List.length l <= List.length (flat_map (fun x => (spelling (fst x) ++ gaps_text (snd x))%list) l))%nat; [|lia].
  induction l as [|[x g] r IH]; [cbn; lia|]. cbn [map fst] in W. cbn [flat_map fst snd]. rewrite !app_length. specialize (IH (Forall_inv_tail W)).
  destruct (spelling_cons al x (Forall_inv W)) as (c & s & -> & _). cbn [List.length]. lia.
Qed.
Print Assumptions C30_roundtrip_partial.

(** The gaps do not matter: two texts with the same tokens are read alike. *)
Theorem C30_layout_irrelevant_partial : forall find_alias l l',
  Forall wf_lexeme (map fst l) -> Forall (Forall wf_gap) (map snd l) -> separated l ->
  Forall (Forall wf_gap) (map snd l') -> separated l' -> map fst l = map fst l' ->
  tokens find_alias (source l) = tokens find_alias (source l').
Proof.
  intros al l l' W Wg Sp Wg' Sp' E. rewrite !C30_roundtrip_partial; auto; [|rewrite <- E; exact W].
  f_equal. rewrite <- !(map_map fst (meaning al)). rewrite E. reflexivity.
Qed.
Print Assumptions C30_layout_irrelevant_partial.

(** ** termination *)
Lemma skip_short b s : (List.length (skip_ws b s) <= List.length s)%nat.
Proof. apply skip_len. Qed.
Lemma read_char_nofuel b k0 s k : s <> [] -> (forall t, (List.length t < List.length s)%nat -> k t <> LFuel) -> read_char b k0 s k <> LFuel.
Proof.
  intros Hs H. unfold read_char. destruct s as [|c s]; [contradiction|]. cbn [tl].
  destruct k0.
  - pose proof (skip_short b s) as L. destruct (skip_ws b s) eqn:Q; [discriminate|]. apply H. cbn [List.length] in *. lia.
  - destruct s; [discriminate|]. apply H. cbn. lia.
Qed.
Lemma skip_nofuel b s k : (forall t, k t <> LFuel) -> skip_whitespace b s k <> LFuel.
Proof. intros H. unfold skip_whitespace. destruct (skip_ws b s); [discriminate|apply H]. Qed.
Lemma run_nofuel b p s k : (forall w t, k w t <> LFuel) -> run_then b p s k <> LFuel.
Proof.
  intros H. unfold run_then. destruct (read_run p s) as [[w r]|]; [|discriminate]. destruct (_ <? _); [|discriminate]. apply skip_nofuel. apply H.
Qed.
Lemma comment_short n : forall s r, (List.length s <= n)%nat -> comment s = CClosed r -> (List.length r < List.length s)%nat.
Proof.
  induction n as [|n IH]; intros [|c0 [|c s]] r H; cbn [comment List.length] in *; try discriminate; try lia.
  destruct (c =? 42).
  - destruct s as [|d s]; [discriminate|]. destruct (d =? 47); [intros Q; injection Q as <-; cbn; lia|]. destruct (d =? 0); [discriminate|].
    intros Q. apply (IH (d :: s)) in Q; cbn [List.length] in *; lia.
  - destruct (c =? 0); [discriminate|]. intros Q. apply (IH (c :: s)) in Q; cbn [List.length] in *; lia.
Qed.
Lemma line_short s : forall r, line_comment s = r -> s <> [] -> (List.length r < List.length s)%nat.
Proof.
  induction s as [|c0 s IH]; intros r E N; [contradiction|]. cbn [line_comment] in E. destruct s as [|c s]; [subst r; cbn; lia|].
  destruct (_ || _); [subst r; cbn; lia|]. apply IH in E; [|discriminate]. cbn [List.length] in *. lia.
Qed.
(** Lexing any input, well formed or not, comes to an end: a token, a diagnostic, or a read beyond
    the input (in an unclosed literal). *)
Theorem C30_terminates : forall find_alias skip_newline aliasing s,
  lex find_alias skip_newline None (S (List.length s)) aliasing s <> LFuel.
Proof.
  intros al nl a s.
  assert (G : forall F s, (List.length s < F)%nat -> lex al nl None F a s <> LFuel).
  { clear s. induction F as [|F IH]; intros s HF; [lia|]. cbn [lex]. destruct s as [|c s]; [discriminate|].
    assert (N : c :: s <> []) by discriminate. set (s0 := c :: s) in *.
    assert (RC : forall k0 k, (forall t, (List.length t < List.length s0)%nat -> k t <> LFuel) -> read_char nl k0 s0 k <> LFuel) by (intros; apply read_char_nofuel; auto).
    assert (R1 : forall k0 t s', read_char nl k0 s' (op t) <> LFuel).
    { intros k0 t s'. unfold read_char. destruct (if k0 then _ else _); discriminate. }
    assert (R2 : forall t s', skip_whitespace nl s' (op t) <> LFuel) by (intros; apply skip_nofuel; discriminate).
    assert (R3 : forall k0 s' k, (forall t, k t <> LFuel) -> read_char nl k0 s' k <> LFuel).
    { intros k0 s' k H. unfold read_char. destruct (if k0 then _ else _); [discriminate|apply H]. }
    clearbody s0.
    destruct (c =? 35). { apply run_nofuel. intros w t. destruct (directive w); discriminate. }
    destruct (c =? 47).
    { apply RC. intros t Ht. cbv zeta. destruct (next_char t =? 42).
      - destruct (comment t) as [r| |] eqn:Q; try discriminate. pose proof (comment_short _ _ _ (le_n _) Q) as L.
        destruct r as [|d r]; [unfold read_char; cbn; destruct nl; discriminate|]. apply read_char_nofuel; [discriminate|]. intros u Hu. apply IH. lia.
      - destruct (next_char t =? 47).
        + destruct t as [|d t]; [discriminate|]. pose proof (line_short (d :: t) _ eq_refl ltac:(discriminate)) as L. destruct (line_comment (d :: t)) as [|e r] eqn:Q; [discriminate|]. apply IH. lia.
        + destruct (next_char t =? 61); [apply R1|discriminate]. }
    repeat first [ apply R1 | apply R2 | discriminate
      | match goal with |- (match string_body ?a ?b ?d with _ => _ end) <> LFuel => destruct (string_body a b d) end
      | match goal with |- (match unescape ?d with _ => _ end) <> LFuel => destruct (unescape d) end
      | match goal with |- (if (c =? 10) then _ else _) <> LFuel => destruct (c =? 10); [apply RC; intros t Ht; apply IH; lia|] end
      | match goal with |- (if ?b then _ else _) <> LFuel => destruct b end
      | apply R3; intros ? | apply run_nofuel; intros ? ?
      | match goal with |- context [word al a ?w] => destruct (word al a w); discriminate end
      | progress cbv zeta ]. }
  apply G. lia.
Qed.
Print Assumptions C30_terminates.

(** ** Where the C grammar is not followed *)
Open Scope string_scope.
Ltac wf_tac := cbn [map fst]; repeat (apply Forall_cons; [cbn [wf_lexeme]; first
    [ solve [split; [vm_compute; reflexivity|]; do 2 eexists; split; [vm_compute; reflexivity|]; split; [unfold letter; lia|]; repeat (constructor; [unfold letter, digit; lia|]); constructor]
    | solve [split; [vm_compute; reflexivity|]; left; split; [discriminate|]; vm_compute; repeat (constructor; [split; discriminate|]); constructor]
    | solve [split; [vm_compute; reflexivity|]; right; eexists; split; [vm_compute; reflexivity|]; split; [discriminate|]; repeat (constructor; [unfold hexdigit, digit; lia|]); constructor]
    | solve [split; [repeat (apply Forall_cons; [cbn [string_char]; split; [try discriminate; cbn; tauto|discriminate]|]); apply Forall_nil|cbn; lia]]
    | solve [cbn; tauto] ]|]); apply Forall_nil.
Ltac not_in := let H := fresh in intros H; vm_compute in H; repeat (destruct H as [H|H]; [discriminate|]); exact H.
Ltac gap_tac := repeat (apply Forall_cons; [cbn [wf_gap]; first [solve [cbn; tauto] | solve [repeat split; first [reflexivity | solve [vm_compute; discriminate] | not_in]]]|]); apply Forall_nil.
Definition none : text -> option text := fun _ => None.
(** white space does not separate some operators: a - -b is read as a -- b *)
Theorem C30_blank_refuted : exists l, Forall wf_lexeme (map fst l) /\ Forall (Forall wf_gap) (map snd l) /\
  Forall (fun x => snd x <> []) l /\ tokens none (source l) <> Some (map (fun x => meaning none (fst x)) l) /\
  tokens none (source l) = Some [(T_identifier, bytes "a"); (T_decrement, []); (T_identifier, bytes "b")].
Proof.
  exists [(Word (bytes "a"), [Blank 32]); (Punct T_minus, [Blank 32]); (Punct T_minus, [Blank 32]); (Word (bytes "b"), [Blank 10])].
  split; [|split; [|split; [|split]]].
  - wf_tac.
  - repeat constructor; cbn; tauto.
  - repeat constructor; discriminate.
  - vm_compute. discriminate.
  - vm_compute. reflexivity.
Qed.
Print Assumptions C30_blank_refuted.
(** a / *p starts a comment *)
Theorem C30_divide_deref_refuted : tokens none (bytes "a / *p;" ++ [0])%list = None.
Proof. vm_compute. reflexivity. Qed.
Print Assumptions C30_divide_deref_refuted.
(** an escaped backslash in a string does not end its own escape: the literal of the two
    characters backslash, n is read as a newline, and a literal of one backslash is not closed *)
Theorem C30_backslash_refuted :
  tokens none (34 :: 92 :: 92 :: 110 :: 34 :: [0]) = Some [(T_string, [10])] /\
  tokens none (34 :: 92 :: 92 :: 34 :: 59 :: [0]) = None.
Proof. split; vm_compute; reflexivity. Qed.
Print Assumptions C30_backslash_refuted.
(** a comment that ends with two stars and a slash is not closed there *)
Theorem C30_stars_refuted : tokens none (bytes "/* x **/ a" ++ [0])%list = None.
Proof. vm_compute. reflexivity. Qed.
Print Assumptions C30_stars_refuted.
(** a line comment ended by CR LF, and a blank at the very start, are rejected *)
Theorem C30_crlf_refuted : tokens none (bytes "a // x" ++ [13; 10; 0])%list = None /\ tokens none (bytes " a" ++ [0])%list = None.
Proof. split; vm_compute; reflexivity. Qed.
Print Assumptions C30_crlf_refuted.
(** In the expansion of a function-like macro whose call is followed by a line comment, lexing
    never ends: at the end of the macro body it returns to the call, skips the comment, and the
    newline after it sends it back again. *)
Theorem C30_macro_comment_refuted : forall find_alias F,
  lex find_alias false (Some (bytes "// c" ++ [10; 0])%list) F true [10; 0] = LFuel.
Proof.
  intros al F. set (r := (bytes "// c" ++ [10; 0])%list).
  assert (G : forall F, lex al false (Some r) F true [10; 0] = LFuel /\ lex al false (Some r) F true r = LFuel).
  { clear F. induction F as [|F [IH1 IH2]]; [split; reflexivity|]. split; [exact IH2|]. exact IH1. }
  apply G.
Qed.
Print Assumptions C30_macro_comment_refuted.

(** The hypotheses are met by a text with every kind of token and gap. *)
Definition sample : list (lexeme * list gap) :=
  [(Dir T_cppd_define, [Blank 32]); (Word (bytes "N"), [Blank 9]); (Num (bytes "0x1F"), [Blank 10]);
   (Word (bytes "int"), [Block (bytes " a comment ")]); (Word (bytes "f"), []); (Punct T_open_bracket, []); (Punct T_close_bracket, [Line (bytes " x"); Blank 32]);
   (Punct T_open_curly, [Splice 32]); (Word (bytes "return"), [Blank 32]); (Word (bytes "x"), []); (Punct T_arrow, []); (Word (bytes "y"), [Blank 32]);
   (Punct T_lshift, []); (Num (bytes "12"), []); (Punct T_plus, [Blank 32]); (Punct T_increment, []); (Word (bytes "z"), []); (Punct T_comma, []);
   (Str [Plain 97; Esc 110; Esc 34; Plain 98], []); (Punct T_comma, []); (Chr (Esc 92), []); (Punct T_semicolon, []); (Punct T_close_curly, [Blank 10])].
Example C30_sample : Forall wf_lexeme (map fst sample) /\ Forall (Forall wf_gap) (map snd sample).
Proof.
  split; [|unfold sample; cbn [map snd]; repeat (apply Forall_cons; [gap_tac|]); apply Forall_nil].
  unfold sample. wf_tac.
Qed.
Example C30_sample_separated : separated sample.
Proof. unfold sample. cbn [separated]. repeat match goal with |- _ /\ _ => split end; try exact I; let H := fresh in first [intros H; first [vm_compute; reflexivity|vm_compute in H; discriminate H]|vm_compute; reflexivity]. Qed.
Example C30_sample_read : tokens none (source sample) = Some (map (fun x => meaning none (fst x)) sample).
Proof. apply C30_roundtrip_partial; [apply C30_sample|apply C30_sample|apply C30_sample_separated]. Qed.
