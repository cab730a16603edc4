From Coq Require Import String Ascii.
From Verif.Front Require Import Lexer LexSpec LexProofs.
Open Scope Z_scope.

(** tests of the first character that fail *)
Ltac no_test := match goal with |- context [?c =? ?k] => lazymatch c with Zpos _ => fail | _ => lazymatch k with Zpos _ => destruct (Z.eqb_spec c k); [exfalso; lia|] | 0 => destruct (Z.eqb_spec c k); [exfalso; lia|] end end end.

Ltac lit := match goal with |- context [Z.eqb (Zpos ?a) ?b] => lazymatch b with Zpos _ => idtac | Z0 => idtac end;
  let v := eval vm_compute in (Z.eqb (Zpos a) b) in change (Z.eqb (Zpos a) b) with v; cbv iota end.
Ltac step f t Sk Sk2 Ns Ng C1 C2 :=
  first
  [ rewrite (read_true _ f _ t Sk Ns)
  | rewrite (read_false _ f _ Ng)
  | rewrite (skip_then f _ t Sk Ns)
  | rewrite (skip_then t _ t Sk2 Ns)
  | match goal with |- context [read_char true true (?a :: ?b :: ?r) ?k] =>
      rewrite (read_true a (b :: r) k (b :: r)); [|apply skip_hard; split; [unfold blank; cbn; lia|lia]|discriminate] end
  | rewrite read_false by discriminate
  | match goal with |- context [next_char (?a :: ?r)] => change (next_char (a :: r)) with a end
  | match goal with |- context [is_digit (Zpos ?a)] => let v := eval vm_compute in (is_digit (Zpos a)) in change (is_digit (Zpos a)) with v; cbv iota end
  | lit
  | match goal with |- context [next_char f =? ?k] => change (next_char f) with (hd 0 f); destruct (Z.eqb_spec (hd 0 f) k) as [E|_]; [rewrite E in C1; vm_compute in C1; discriminate|] end
  | match goal with |- context [hd 0 f =? ?k] => destruct (Z.eqb_spec (hd 0 f) k) as [E|_]; [rewrite E in C1; vm_compute in C1; discriminate|] end
  | match goal with |- context [next_char t =? ?k] => destruct (Z.eqb_spec (next_char t) k) as [E|_]; [unfold next_char in E; rewrite E in C2; specialize (C2 eq_refl); vm_compute in C2; discriminate|] end
  ]; cbv beta zeta.

Lemma skip_len b s : (List.length (skip_ws b s) <= List.length s)%nat.
Proof.
  assert (G : forall n s, (List.length s <= n)%nat -> (List.length (skip_ws b s) <= List.length s)%nat).
  { induction n as [|n IH]; intros [|c [|d r]] H; try (cbn [skip_ws List.length] in *; lia).
    - cbn [skip_ws]. destruct (_ || _); cbn; lia.
    - assert (E : skip_ws b (c :: d :: r) = if (c =? 92) && (d =? 10) then skip_ws b r else if is_whitespace c || (b && is_newline c) then skip_ws b (d :: r) else c :: d :: r) by reflexivity.
      rewrite E. destruct (_ && _); [pose proof (IH r ltac:(cbn in H; lia)); cbn [List.length]; lia|].
      destruct (_ || _); [|lia]. pose proof (IH (d :: r) ltac:(cbn in *; lia)). cbn [List.length] in *. lia. }
  apply (G (List.length s)). lia.
Qed.

Section Tok.
  Variable al : text -> option text.
  Notation lex F := (lex al true None F true).

  Lemma gaps_not_nil g rest : rest <> [] -> gaps_text g ++ rest <> [].
  Proof. intros H Q. apply app_eq_nil in Q. tauto. Qed.

  Lemma word_meaning w : word al true w = meaning al (Word w).
  Proof.
    unfold word, meaning, find_token, keywords.
    repeat match goal with |- context [bytes ?s] => let v := eval vm_compute in (bytes s) in change (bytes s) with v end.
    unfold n_if, n_while, n_for, n_do, n_else, n_return, n_typedef, n_enum, n_struct, n_sizeof, n_switch, n_case, n_break, n_default, n_continue, n_Bool.
    cbn [find snd fst option_map].
    repeat match goal with |- context [text_eqb w ?k] => let H := fresh "H" in destruct (text_eqb w k) eqn:H; [apply text_eqb_eq in H; subst w; reflexivity|] end.
    reflexivity.
  Qed.

  (** one token *)
  Lemma lex_token F x g rest : wf_lexeme x -> Forall wf_gap g -> hard rest ->
    continues x (hd 0 (gaps_text g ++ rest)) = false ->
    (looks_past_blanks x = true -> continues x (hd 0 (solid g rest)) = false) ->
    lex (S F) (spelling x ++ gaps_text g ++ rest) = LTok (fst (meaning al x)) (snd (meaning al x)) (solid g rest).
  Proof.
    intros W Wg Hr C1 C2. pose proof (skip_solid g rest Wg Hr) as Sk. pose proof (hard_not_nil _ (solid_hard g rest Wg Hr)) as Ns.
    pose proof (skip_hard _ (solid_hard g rest Wg Hr)) as Sk2.
    pose proof (gaps_not_nil g rest (hard_not_nil _ Hr)) as Ng.
    set (f := gaps_text g ++ rest) in *. set (t := solid g rest) in *. clearbody f t.
    destruct x as [w|w|p|l|c|p]; cbn [spelling] in *.
    - (* word *)
      destruct W as [L (c & r & -> & Lc & Lr)]. cbn [app].
      rewrite <- word_meaning. cbn [lex Lexer.lex]. unfold letter in Lc.
      repeat no_test. assert (D : is_digit c = false) by (apply not_true_is_false; rewrite is_digit_iff; unfold digit; lia).
      rewrite D. repeat no_test. assert (A : is_alnum c = true) by (apply is_alnum_iff; left; exact Lc). rewrite A.
      rewrite (run_then_all is_alnum c r f _ t); auto; [destruct (word al true (c :: r)); reflexivity|].
      eapply Forall_impl; [|exact Lr]. intros d Hd. apply is_alnum_iff. exact Hd.
    - (* number *)
      destruct W as [L W].
      assert (Wn : exists c r, w = c :: r /\ digit c /\ Forall (fun c => is_hex c = true) r).
      { destruct W as [[Nw A]|(r & -> & Nr & A)].
        - destruct w as [|c r]; [contradiction|]. exists c, r. split; [reflexivity|]. split; [exact (Forall_inv A)|]. apply Forall_inv_tail in A.
          eapply Forall_impl; [|exact A]. intros d Hd. apply is_hex_iff. left. left. exact Hd.
        - exists 48, (120 :: r). split; [reflexivity|]. split; [unfold digit; lia|]. constructor; [reflexivity|].
          eapply Forall_impl; [|exact A]. intros d Hd. apply is_hex_iff. left. exact Hd. }
      destruct Wn as (c & r & -> & Dc & A). cbn [app Lexer.lex]. unfold digit in Dc. do 2 no_test. assert (D : is_digit c = true) by (apply is_digit_iff; exact Dc).
      rewrite D. rewrite (run_then_all is_hex c r f _ t); auto.
    - (* punctuation *)
      cbn [wf_lexeme] in W. clear Wg Hr g rest.
      cbn [map fst punctuators In] in W.
      repeat (destruct W as [<-|W];
        [match goal with |- context [find_text ?a ?b] => let v := eval vm_compute in (find_text a b) in change (find_text a b) with v end;
         cbn [app Lexer.lex]; cbv beta; repeat lit; cbn [meaning fst snd]; repeat (step f t Sk Sk2 Ns Ng C1 C2); reflexivity|]).
      destruct W.
    - (* string *)
      destruct W as [W L]. cbn [app]. rewrite <- app_assoc. cbn [app Lexer.lex]. repeat lit. cbn [is_digit]. change (is_digit 34) with false. cbv iota. repeat lit.
      rewrite (string_ok l [] 34 f W); [|intros b r Q; discriminate|exact Ng]. cbn [rev app]. rewrite map_length.
      destruct (Z.ltb_spec (Z.of_nat (List.length l)) MAX_TOKEN_LEN); [|unfold MAX_TOKEN_LEN in *; lia].
      rewrite (read_true _ f _ t Sk Ns). reflexivity.
    - (* character *)
      cbn [app]. rewrite <- app_assoc. cbn [app Lexer.lex]. repeat lit. change (is_digit 39) with false. cbv iota. repeat lit.
      destruct c as [c|e]; cbn [schar_text app]; cbn [wf_lexeme char_char] in W.
      + rewrite read_false by discriminate. cbv zeta. cbn [next_char hd]. destruct (Z.eqb_spec c 92); [tauto|].
        rewrite (read_true c (39 :: f) _ (39 :: f)); [|apply skip_hard; split; [unfold blank; cbn; lia|lia]|discriminate].
        cbn [next_char hd]. lit. rewrite (read_true _ f _ t Sk Ns). reflexivity.
      + rewrite read_false by discriminate. cbv zeta. cbn [next_char hd]. lit. rewrite read_false by discriminate. cbn [next_char hd].
        rewrite unescape_ok by exact W.
        rewrite (read_true e (39 :: f) _ (39 :: f)); [|apply skip_hard; split; [unfold blank; cbn; lia|lia]|discriminate].
        cbn [next_char hd]. lit. rewrite (read_true _ f _ t Sk Ns). reflexivity.
    - (* directive *)
      cbn [wf_lexeme map fst directives In] in W. cbn [meaning fst snd].
      repeat (destruct W as [<-|W];
        [match goal with |- context [find_text ?a ?b] =>
           let v := eval vm_compute in (find_text a b) in let w := eval cbv in (tl v) in
           change (find_text a b) with v; cbn [app Lexer.lex]; lit;
           match goal with |- context [run_then true is_alnum ?s ?k] => change s with (35 :: w ++ f) end;
           rewrite (run_then_all is_alnum 35 w f _ t); [reflexivity|repeat constructor|exact Ng|exact C1|vm_compute; reflexivity|exact Sk|exact Ns]
         end|]).
      destruct W.
  Qed.

  (** the gap before a token *)
  Lemma lex_gaps g : forall F rest, Forall wf_gap g -> hard rest -> (List.length (solid g rest) < F)%nat ->
    exists F', (List.length rest < F')%nat /\ lex F (solid g rest) = lex F' rest.
  Proof.
    induction g as [|x g IH]; intros F rest W Hr HF; [exists F; auto|].
    pose proof (Forall_inv W) as Wx. apply Forall_inv_tail in W.
    pose proof (skip_solid g rest W Hr) as Sk. pose proof (hard_not_nil _ (solid_hard g rest W Hr)) as Ns.
    destruct x as [c|c|b|b]; cbn [solid] in *; [apply IH; assumption..| |].
    - (* block comment *)
      cbn [wf_gap] in Wx. destruct Wx as (W0 & W1 & W2). destruct F as [|F]; [lia|].
      assert (Q : gaps_text (Block b :: g) ++ rest = 47 :: 42 :: b ++ 42 :: 47 :: (gaps_text g ++ rest)).
      { cbn [gaps_text flat_map gap_text]. rewrite <- !app_assoc. reflexivity. }
      rewrite Q in *. destruct (IH F rest W Hr) as (F' & HF' & E).
      { assert (L : (List.length (solid g rest) <= List.length (gaps_text g ++ rest))%nat) by (rewrite <- Sk; apply skip_len). cbn [List.length] in HF. rewrite app_length in HF. cbn [List.length] in HF. lia. }
      exists F'. split; [exact HF'|]. rewrite <- E. cbn [Lexer.lex]. do 2 lit.
      rewrite (read_true 47 (42 :: b ++ 42 :: 47 :: gaps_text g ++ rest) _ (42 :: b ++ 42 :: 47 :: gaps_text g ++ rest)); [|apply skip_hard; split; [unfold blank; cbn; lia|lia]|discriminate].
      cbv zeta. cbn [next_char hd]. lit. rewrite (comment_body _ b 42 _ (le_n _) W0 W1 W2). rewrite (read_true _ _ _ _ Sk Ns). reflexivity.
    - (* line comment *)
      cbn [wf_gap] in Wx. destruct Wx as (W0 & W1 & W2 & _). destruct F as [|F]; [lia|].
      assert (Q : gaps_text (Line b :: g) ++ rest = 47 :: 47 :: b ++ 10 :: (gaps_text g ++ rest)).
      { cbn [gaps_text flat_map gap_text]. rewrite <- !app_assoc. reflexivity. }
      rewrite Q in *. cbn [List.length] in HF. rewrite app_length in HF. cbn [List.length] in HF. destruct F as [|F]; [lia|].
      destruct (IH F rest W Hr) as (F' & HF' & E).
      { assert (L : (List.length (solid g rest) <= List.length (gaps_text g ++ rest))%nat) by (rewrite <- Sk; apply skip_len). lia. }
      exists F'. split; [exact HF'|]. rewrite <- E.
      assert (E1 : lex (S (S F)) (47 :: 47 :: b ++ 10 :: gaps_text g ++ rest) = lex (S F) (10 :: gaps_text g ++ rest)).
      { remember (S F) as F1. cbn [Lexer.lex]. do 2 lit.
        rewrite (read_true 47 (47 :: b ++ 10 :: gaps_text g ++ rest) _ (47 :: b ++ 10 :: gaps_text g ++ rest)); [|apply skip_hard; split; [unfold blank; cbn; lia|lia]|discriminate].
        cbv zeta. cbn [next_char hd]. do 2 lit. rewrite line_body by assumption. reflexivity. }
      rewrite E1. cbn [Lexer.lex]. repeat lit. change (is_digit 10) with false. cbv iota. repeat lit. change (is_alnum 10) with false. cbv iota. repeat lit.
      rewrite (read_true _ _ _ _ Sk Ns). reflexivity.
  Qed.

  Lemma spelling_cons x : wf_lexeme x -> exists c r, spelling x = c :: r /\ ~ blank c /\ c <> 92 /\ c <> 0.
  Proof.
    destruct x as [w|w|p|l|c|p]; cbn [wf_lexeme spelling].
    - intros [_ (c & r & -> & Lc & _)]. exists c, r. unfold letter, blank in *. cbn. intuition lia.
    - intros [_ [[Nw A]|(r & -> & _)]].
      + destruct w as [|c r]; [contradiction|]. exists c, r. pose proof (Forall_inv A). unfold digit, blank in *. cbn. intuition lia.
      + exists 48, (120 :: r). unfold blank. cbn. intuition lia.
    - intros W. cbn [map fst punctuators In] in W.
      repeat (destruct W as [<-|W]; [match goal with |- context [find_text ?a ?b] => let v := eval vm_compute in (find_text a b) in change (find_text a b) with v end; do 2 eexists; split; [reflexivity|]; unfold blank; cbn; intuition lia|]). destruct W.
    - intros _. exists 34. eexists. split; [reflexivity|]. unfold blank. cbn. intuition lia.
    - intros _. exists 39. eexists. split; [reflexivity|]. unfold blank. cbn. intuition lia.
    - intros W. cbn [map fst directives In] in W.
      repeat (destruct W as [<-|W]; [match goal with |- context [find_text ?a ?b] => let v := eval vm_compute in (find_text a b) in change (find_text a b) with v end; do 2 eexists; split; [reflexivity|]; unfold blank; cbn; intuition lia|]). destruct W.
  Qed.
  Lemma source_cons x g r : source ((x, g) :: r) = spelling x ++ gaps_text g ++ source r.
  Proof. unfold source. cbn [flat_map fst snd]. rewrite <- !app_assoc. reflexivity. Qed.
  Lemma source_hard l : Forall wf_lexeme (map fst l) -> hard (source l).
  Proof.
    destruct l as [|[x g] r]; intros W; [cbn; unfold blank; cbn; intuition lia|].
    rewrite source_cons. destruct (spelling_cons x (Forall_inv W)) as (c & s & -> & B & N & _). cbn. split; [exact B|congruence].
  Qed.
  Lemma meaning_not_eof x : wf_lexeme x -> (forall w a, al w = Some a -> True) -> fst (meaning al x) <> T_eof.
  Proof.
    intros W _. destruct x as [w|w|p|l|c|p]; cbn [meaning wf_lexeme] in *; try discriminate.
    - destruct (find_token w keywords) as [t|] eqn:Q.
      + unfold find_token in Q. destruct (find _ keywords) as [[t' k]|] eqn:Q2; [|discriminate]. cbn in Q. injection Q as <-. apply find_some in Q2. destruct Q2 as [I _].
        cbn [keywords In] in I. cbn [fst]. intuition congruence.
      + destruct (al w) as [a|]; [|discriminate]. cbn [fst]. destruct (is_numeric a); [discriminate|]. destruct (text_eqb a _); discriminate.
    - cbn [fst]. intros ->. cbn in W. intuition discriminate.
    - cbn [fst]. intros ->. cbn in W. intuition discriminate.
  Qed.

  Lemma lex_all_ok l : forall n g, Forall wf_lexeme (map fst l) -> Forall (Forall wf_gap) (map snd l) -> separated l -> Forall wf_gap g -> (List.length l < n)%nat ->
    lex_all al n (solid g (source l)) = Some (map (fun x => meaning al (fst x)) l).
  Proof.
    induction l as [|[x gx] r IH]; intros n g W Wg Sp G Hn; (destruct n as [|n]; [cbn in Hn; lia|]); cbn [lex_all].
    - destruct (lex_gaps g (S (List.length (solid g (source [])))) (source []) G) as (F' & HF & ->); [cbn; unfold blank; cbn; intuition lia|lia|].
      destruct F' as [|F']; [cbn in HF; lia|]. reflexivity.
    - cbn [map fst snd] in W, Wg. destruct Sp as (S1 & S2 & S3).
      destruct (lex_gaps g (S (List.length (solid g (source ((x, gx) :: r))))) (source ((x, gx) :: r)) G (source_hard ((x, gx) :: r) W) ltac:(lia)) as (F' & HF & ->).
      destruct F' as [|F']; [lia|]. rewrite source_cons, lex_token; auto; [|exact (Forall_inv W)|exact (Forall_inv Wg)|apply source_hard; exact (Forall_inv_tail W)].
      pose proof (meaning_not_eof x (Forall_inv W) (fun _ _ _ => I)) as Ne. cbn [map fst]. rewrite (IH n gx (Forall_inv_tail W) (Forall_inv_tail Wg) S3 (Forall_inv Wg)) by (cbn in Hn; lia).
      destruct (meaning al x) as [t v]. cbn [fst snd] in *. destruct t; try reflexivity. contradiction.
  Qed.
End Tok.
