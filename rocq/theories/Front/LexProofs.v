From Coq Require Import String Ascii.
From Verif.Front Require Import Lexer LexSpec.
Open Scope Z_scope.
Notation len := List.length.

Lemma text_eqb_eq a : forall b, text_eqb a b = true <-> a = b.
Proof.
  induction a as [|x a IH]; intros [|y b]; cbn; split; try congruence; try discriminate; auto.
  - rewrite andb_true_iff, Z.eqb_eq, IH. intros [-> ->]. reflexivity.
  - intros Q. injection Q as -> ->. rewrite Z.eqb_refl. apply IH. reflexivity.
Qed.
Lemma token_eqb_eq a b : token_eqb a b = true <-> a = b.
Proof. unfold token_eqb. match goal with |- (if ?d then _ else _) = _ <-> _ => destruct d end; intuition congruence. Qed.

(** ** character classes *)
Lemma is_digit_iff c : is_digit c = true <-> digit c.
Proof. unfold is_digit, digit. rewrite andb_true_iff, !Z.leb_le. tauto. Qed.
Lemma is_alnum_iff c : is_alnum c = true <-> letter c \/ digit c.
Proof. unfold is_alnum, is_digit, letter, digit. rewrite !orb_true_iff, !andb_true_iff, !Z.leb_le, Z.eqb_eq. tauto. Qed.
Lemma is_hex_iff c : is_hex c = true <-> hexdigit c \/ c = 120.
Proof. unfold is_hex, is_digit, hexdigit, digit. rewrite !orb_true_iff, !andb_true_iff, !Z.leb_le, Z.eqb_eq. tauto. Qed.

(** ** skipping *)
Definition blank (c : Z) : Prop := In c [32; 9; 10; 13].
Definition hard (s : text) : Prop := match s with [] => False | c :: r => ~ blank c /\ (c = 92 -> hd 0 r <> 10) end.
Lemma skip_blank c s : blank c -> skip_ws true (c :: s) = skip_ws true s.
Proof. intros [<-|[<-|[<-|[<-|[]]]]]; cbn; destruct s; reflexivity. Qed.
Lemma skip_splice s : skip_ws true (92 :: 10 :: s) = skip_ws true s.
Proof. reflexivity. Qed.
Lemma skip_hard s : hard s -> skip_ws true s = s.
Proof.
  assert (B : forall c, ~ blank c -> is_whitespace c || (true && is_newline c) = false).
  { intros c H1. unfold blank in H1. cbn in H1. unfold is_whitespace, is_newline.
    destruct (Z.eqb_spec c 32), (Z.eqb_spec c 9), (Z.eqb_spec c 13), (Z.eqb_spec c 10); cbn; try reflexivity; exfalso; intuition congruence. }
  destruct s as [|c [|d s]]; [intros []| |]; intros [H1 H2]; cbn [skip_ws]; rewrite (B c H1); [reflexivity|].
  cbn in H2. destruct (Z.eqb_spec c 92), (Z.eqb_spec d 10); cbn [andb]; try reflexivity; exfalso; apply H2; assumption.
Qed.
Lemma solid_hard g rest : Forall wf_gap g -> hard rest -> hard (solid g rest).
Proof.
  induction 1 as [|[c|c|b|b] g W Ws IH]; intros H; cbn [solid]; auto.
  - cbn. unfold blank. cbn. intuition; try discriminate; lia.
  - cbn. unfold blank. cbn. intuition; try discriminate; lia.
Qed.
Lemma skip_solid g rest : Forall wf_gap g -> hard rest -> skip_ws true (gaps_text g ++ rest) = solid g rest.
Proof.
  induction 1 as [|[c|c|b|b] g W Ws IH]; intros H; cbn [solid].
  - apply skip_hard. exact H.
  - cbn [gaps_text flat_map gap_text app]. rewrite skip_blank by exact W. apply IH. exact H.
  - cbn [gaps_text flat_map gap_text app]. rewrite skip_splice, skip_blank; [apply IH; exact H|]. destruct W as [<-|[<-|[]]]; unfold blank; cbn; auto.
  - apply skip_hard. apply (solid_hard (Block b :: g)); [constructor; assumption|exact H].
  - apply skip_hard. apply (solid_hard (Line b :: g)); [constructor; assumption|exact H].
Qed.
Lemma hard_not_nil s : hard s -> s <> [].
Proof. destruct s; [intros []|discriminate]. Qed.

Lemma read_true c s k t : skip_ws true s = t -> t <> [] -> read_char true true (c :: s) k = k t.
Proof. intros <- H. unfold read_char. cbn [tl]. destruct (skip_ws true s); [contradiction|reflexivity]. Qed.
Lemma read_false c s k : s <> [] -> read_char true false (c :: s) k = k s.
Proof. intros H. unfold read_char. cbn [tl]. destruct s; [contradiction|reflexivity]. Qed.
Lemma skip_then s k t : skip_ws true s = t -> t <> [] -> skip_whitespace true s k = k t.
Proof. intros <- H. unfold skip_whitespace. destruct (skip_ws true s); [contradiction|reflexivity]. Qed.

(** ** runs of characters *)
Lemma run_all p w : forall c s, Forall (fun c => p c = true) w -> s <> [] -> p (hd 0 s) = false -> read_run p (c :: w ++ s) = Some (c :: w, s).
Proof.
  induction w as [|d w IH]; intros c s A Hs Hp; cbn [app].
  - destruct s as [|d s]; [contradiction|]. cbn in *. rewrite Hp. reflexivity.
  - change (read_run p (c :: d :: w ++ s)) with (if p d then match read_run p (d :: w ++ s) with Some (v, r) => Some (c :: v, r) | None => None end else Some ([c], d :: w ++ s)).
    rewrite (Forall_inv A), IH; auto. apply Forall_inv_tail in A. exact A.
Qed.
Lemma run_then_all p c w s k t : Forall (fun c => p c = true) w -> s <> [] -> p (hd 0 s) = false -> short (c :: w) -> skip_ws true s = t -> t <> [] ->
  run_then true p (c :: w ++ s) k = k (c :: w) t.
Proof.
  intros A Hs Hp L Et Nt. unfold run_then. rewrite run_all by auto. unfold short in L. destruct (Z.ltb_spec (Z.of_nat (len (c :: w))) MAX_TOKEN_LEN); [|unfold MAX_TOKEN_LEN in *; lia].
  apply skip_then; assumption.
Qed.

(** ** comments *)
Lemma comment_body n : forall b c0 rest, (len b <= n)%nat -> ~ In 0 b -> closes b = false -> last b 0 <> 42 ->
  comment (c0 :: b ++ 42 :: 47 :: rest) = CClosed (47 :: rest).
Proof.
  induction n as [|n IH]; intros b c0 rest Hn H0 Hc Hl.
  - destruct b; [|cbn in Hn; lia]. reflexivity.
  - destruct b as [|c b]; [reflexivity|].
    change ((c :: b) ++ 42 :: 47 :: rest) with (c :: (b ++ 42 :: 47 :: rest)).
    cbn [closes] in Hc. apply orb_false_iff in Hc. destruct Hc as [Hc1 Hc2]. cbn [In] in H0. cbn [len] in Hn.
    destruct (Z.eqb_spec c 42) as [->|Nc].
    + destruct b as [|d b]; [cbn in Hl; congruence|]. cbn [hd] in Hc1. cbn [andb] in Hc1. cbn [len In closes] in *. apply orb_false_iff in Hc2. destruct Hc2 as [_ Hc2].
      cbn [app]. cbn [comment]. rewrite Z.eqb_refl, Hc1. destruct (Z.eqb_spec d 0) as [->|]; [tauto|].
      apply (IH b d); [lia|tauto|exact Hc2|]. destruct b; [cbn; discriminate|]. exact Hl.
    + assert (E : forall t, comment (c0 :: c :: t) = if c =? 42 then match t with [] => CFault | d :: _ => if d =? 47 then CClosed t else if d =? 0 then COpen else comment t end else if c =? 0 then COpen else comment (c :: t)) by reflexivity.
      rewrite E. destruct (Z.eqb_spec c 42); [contradiction|]. destruct (Z.eqb_spec c 0) as [->|]; [tauto|].
      apply IH; [lia|tauto|exact Hc2|]. destruct b; [cbn; discriminate|]. exact Hl.
Qed.
Lemma line_body b : forall c0 rest, ~ In 0 b -> ~ In 10 b -> ~ In 13 b -> line_comment (c0 :: b ++ 10 :: rest) = 10 :: rest.
Proof.
  induction b as [|c b IH]; intros c0 rest H0 H1 H2; [reflexivity|]. cbn [In] in *.
  change ((c :: b) ++ 10 :: rest) with (c :: (b ++ 10 :: rest)).
  assert (E : forall t, line_comment (c0 :: c :: t) = if (c =? 0) || is_newline c then c :: t else line_comment (c :: t)) by reflexivity.
  rewrite E. unfold is_newline. destruct (Z.eqb_spec c 0); [tauto|]. destruct (Z.eqb_spec c 13); [tauto|]. destruct (Z.eqb_spec c 10); [tauto|]. cbn [orb]. apply IH; tauto.
Qed.

(** ** strings *)
Lemma unescape_ok e : In e (map fst escapes) -> unescape e = Some (schar_value (Esc e)).
Proof. cbn. intuition (subst; reflexivity). Qed.
Lemma schar_value_not_bs x : string_char x -> schar_value x <> 92.
Proof. destruct x as [c|e]; cbn [string_char]; [cbn; tauto|]. intros [I N]. cbn in I. destruct I as [<-|[<-|[<-|[<-|[<-|[<-|[<-|[]]]]]]]]; cbn; try discriminate; congruence. Qed.
Lemma string_ok l : forall acc c0 rest, Forall string_char l -> (forall b r, acc = b :: r -> b <> 92) -> rest <> [] ->
  string_body acc false (c0 :: flat_map schar_text l ++ 34 :: rest) = SDone (rev acc ++ map schar_value l) (34 :: rest).
Proof.
  induction l as [|x l IH]; intros acc c0 rest W Ha Hr; cbn [flat_map app map].
  - cbn [string_body]. rewrite Z.eqb_refl. cbn [andb negb]. rewrite app_nil_r. reflexivity.
  - pose proof (Forall_inv W) as Wx. apply Forall_inv_tail in W.
    assert (R : rev acc ++ schar_value x :: map schar_value l = rev (schar_value x :: acc) ++ map schar_value l) by (cbn; rewrite <- app_assoc; reflexivity).
    rewrite R. pose proof (schar_value_not_bs x Wx) as Nx.
    destruct x as [c|e]; cbn [schar_text app]; cbn [string_char] in Wx.
    + set (t := flat_map schar_text l ++ 34 :: rest).
      assert (E : string_body acc false (c0 :: c :: t) = if (c =? 34) && negb false then SDone (rev acc) (c :: t) else match acc with
              | b :: acc' => if b =? 92 then match unescape c with Some v => string_body (v :: acc') (c =? 92) (c :: t) | None => SError end else string_body (c :: acc) (c =? 92) (c :: t)
              | [] => string_body [c] (c =? 92) (c :: t) end) by reflexivity.
      rewrite E. destruct (Z.eqb_spec c 34); [tauto|]. destruct (Z.eqb_spec c 92); [tauto|]. cbn [andb].
      destruct acc as [|b acc].
      * apply IH; auto. intros b r Q. injection Q as <- <-. tauto.
      * destruct (Z.eqb_spec b 92) as [->|]; [exfalso; apply (Ha 92 acc eq_refl eq_refl)|]. apply IH; auto. intros b' r Q. injection Q as <- <-. tauto.
    + set (t := flat_map schar_text l ++ 34 :: rest). destruct Wx as [We Ne].
      assert (E : string_body acc false (c0 :: 92 :: e :: t) = string_body (92 :: acc) true (92 :: e :: t)).
      { cbn [string_body]. cbn [Z.eqb andb]. destruct acc as [|b acc]; [reflexivity|]. destruct (Z.eqb_spec b 92) as [->|]; [exfalso; apply (Ha 92 acc eq_refl eq_refl)|reflexivity]. }
      rewrite E.
      assert (E2 : string_body (92 :: acc) true (92 :: e :: t) = match unescape e with Some v => string_body (v :: acc) (e =? 92) (e :: t) | None => SError end).
      { cbn [string_body]. rewrite andb_false_r. reflexivity. }
      rewrite E2, unescape_ok by exact We. destruct (Z.eqb_spec e 92); [contradiction|]. apply IH; auto.
      intros b r Q. injection Q as <- <-. exact Nx.
Qed.
