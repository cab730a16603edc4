(** C42: embedding libc.

    The specification reads the generated file as the C program it is: a fixed prologue defining __c (which appends the
    characters of a string to the source), a sequence of calls of __c with one string literal each, and a closing brace. *)
From Coq Require Import String.
From Verif.Front Require Import Lexer LexSpec.
From Verif.Tool Require Import Inliner.

(** simple escape sequences, C11 6.4.4.4 *)
Definition escape (c : Z) : option Z :=
  if c =? 110 then Some 10 else if c =? 116 then Some 9 else if c =? 114 then Some 13 else if c =? 92 then Some 92
  else if c =? 34 then Some 34 else if c =? 39 then Some 39 else if c =? 97 then Some 7 else if c =? 98 then Some 8
  else if c =? 102 then Some 12 else if c =? 118 then Some 11 else if c =? 63 then Some 63 else None.
(** the value of a string literal (after its opening quote) and what follows its closing quote *)
Fixpoint literal_value (esc : bool) (t : text) : option (text * text) :=
  match t with
  | [] => None
  | c :: r =>
    if esc then match escape c, literal_value false r with Some v, Some (s, k) => Some (v :: s, k) | _, _ => None end
    else if c =? 34 then Some ([], r)
    else if c =? 92 then literal_value true r
    else if c =? 10 then None
    else match literal_value false r with Some (s, k) => Some (c :: s, k) | None => None end
  end.
Fixpoint strip (p t : text) : option text :=
  match p, t with
  | [], _ => Some t
  | a :: p, b :: t => if a =? b then strip p t else None
  | _, _ => None
  end.
(** the characters a call of __c appends: up to the first NUL *)
Fixpoint upto_nul (t : text) : text := match t with [] => [] | c :: r => if c =? 0 then [] else c :: upto_nul r end.
(** statements  __c(STRING);  until the closing brace; the result is the text they append to the source *)
Inductive calls : text -> text -> Prop :=
| calls_end : calls epilogue []
| calls_more t t1 s t2 t3 out :
    strip open_call t = Some t1 -> literal_value false t1 = Some (s, t2) -> strip (bytes ");" ++ [10]) t2 = Some t3 ->
    calls t3 out -> calls t (upto_nul s ++ out).
Definition embeds (file libc : text) : Prop := exists t, strip prologue file = Some t /\ calls t libc.

(** [embeds] is a partial function: the embedded text is determined by the file. *)
Lemma embeds_det f a b : embeds f a -> embeds f b -> a = b.
Proof.
  intros (t & H1 & H2) (t' & H3 & H4). assert (t' = t) as -> by congruence. clear - H2 H4. revert b H4.
  induction H2 as [|t t1 s t2 t3 out A B C D IH]; intros b H4; inversion H4 as [|? u1 s' u2 u3 out' A' B' C' D']; subst; try reflexivity.
  - vm_compute in A'. discriminate.
  - vm_compute in A. discriminate.
  - rewrite A in A'. injection A' as <-. rewrite B in B'. injection B' as <- <-. rewrite C in C'. injection C' as <-. f_equal. auto.
Qed.

(* ---- proofs ---- *)
Definition room (b : list Z) (n : nat) : Prop := Z.of_nat (List.length b) + Z.of_nat n <= MAX_SIZE.
Lemma write_char_ok (b : list Z) c n : room b (S n) -> write_char (Some b) c = Some (b ++ [c]) /\ room (b ++ [c]) n.
Proof. unfold room, write_char. intros H. destruct (Z.ltb_spec (Z.of_nat (List.length b)) MAX_SIZE); [|lia]. split; [reflexivity|]. rewrite app_length. cbn. lia. Qed.
Lemma write_str_ok s : forall (b : list Z) n, Forall (fun c => c <> 0) s -> room b (List.length s + n) -> write_str (Some b) s = Some (b ++ s) /\ room (b ++ s) n.
Proof.
  induction s as [|c s IH]; intros b n F R; cbn [write_str]; [rewrite app_nil_r; auto|].
  inversion F; subst. destruct (Z.eqb_spec c 0); [congruence|]. destruct (write_char_ok b c (List.length s + n)) as [-> R']; [exact R|].
  destruct (IH (b ++ [c]) n) as [-> R2]; auto. rewrite <- app_assoc in *. auto.
Qed.
Fixpoint escaped (s : text) : text :=
  match s with [] => [] | c :: r => (if c =? 34 then [92; 34] else if c =? 10 then [] else [c]) ++ escaped r end.
Lemma write_escaped_ok s : forall (b : list Z) n, Forall (fun c => c <> 0) s -> room b (List.length (escaped s) + n) ->
  write_escaped (Some b) s = Some (b ++ escaped s) /\ room (b ++ escaped s) n.
Proof.
  induction s as [|c s IH]; intros b n F R; cbn [write_escaped escaped]; [rewrite app_nil_r; auto|].
  inversion F; subst. destruct (Z.eqb_spec c 0); [congruence|]. cbn [escaped] in R. rewrite app_length in R.
  destruct (Z.eqb_spec c 34); cbn [List.length app] in *.
  - destruct (write_char_ok b 92 (S (List.length (escaped s) + n))) as [-> R1]; [exact R|].
    destruct (write_char_ok (b ++ [92]) 34 (List.length (escaped s) + n)) as [-> R2]; [exact R1|].
    destruct (IH _ n H2 R2) as [-> R3]. rewrite <- !app_assoc in *. auto.
  - destruct (Z.eqb_spec c 10); cbn [negb List.length app] in *; [exact (IH b n H2 R)|].
    destruct (write_char_ok b c (List.length (escaped s) + n)) as [-> R1]; [exact R|].
    destruct (IH _ n H2 R1) as [-> R3]. rewrite <- !app_assoc in *. auto.
Qed.
Definition call_text (l : text) : text := open_call ++ escaped l ++ [92; 110] ++ close_call.
Lemma nonzero_b s : forallb (fun c => negb (c =? 0)) s = true -> Forall (fun c => c <> 0) s.
Proof. rewrite forallb_forall, Forall_forall. intros H c Hc. specialize (H c Hc). destruct (Z.eqb_spec c 0); [discriminate|assumption]. Qed.
Lemma write_line_ok l (b : list Z) n : Forall (fun c => c <> 0) l -> room b (List.length (call_text l) + n) ->
  write_line (Some b) l = Some (b ++ call_text l) /\ room (b ++ call_text l) n.
Proof.
  intros F R. unfold write_line, call_text in *. rewrite !app_length in R.
  destruct (write_str_ok open_call b (List.length (escaped l) + (2 + (List.length close_call + n)))) as [-> R1];
    [apply nonzero_b; reflexivity|cbn [List.length] in R; unfold room in *; lia|].
  destruct (write_escaped_ok l _ _ F R1) as [-> R2].
  destruct (write_char_ok _ 92 _ R2) as [-> R3]. destruct (write_char_ok _ 110 _ R3) as [-> R4].
  destruct (write_str_ok close_call _ n ltac:(apply nonzero_b; reflexivity) R4) as [-> R5].
  rewrite <- !app_assoc in *. auto.
Qed.

Definition line_ok (l : text) : Prop :=
  Z.of_nat (List.length l) < 199 /\ Forall (fun c => c <> 0 /\ c <> 10 /\ c <> 92) l.
Definition file_of (lines : list text) : text := flat_map (fun l => l ++ [10]) lines.

Lemma fgets_line l : forall n r, (List.length l < n)%nat -> Forall (fun c => c <> 10) l -> fgets n (l ++ 10 :: r) = (l ++ [10], r).
Proof.
  induction l as [|c l IH]; intros n r L F; cbn [app]; destruct n as [|n]; cbn in L; try lia; cbn [fgets]; [reflexivity|].
  inversion F; subst. destruct (Z.eqb_spec c 10); [congruence|]. rewrite IH by (auto; lia). reflexivity.
Qed.
Lemma load_nil fuel b : load_from fuel b [] = b. Proof. destruct fuel; reflexivity. Qed.
Lemma load_cons fuel b l t : load_from (S fuel) b (l ++ 10 :: t) =
  let (x, r) := fgets (Z.to_nat (MAX_LINE_LEN - 1)) (l ++ 10 :: t) in load_from fuel (write_line b x) r.
Proof. destruct l; reflexivity. Qed.
Lemma load_ok lines : forall fuel (b : list Z) n, Forall line_ok lines -> (List.length (file_of lines) <= fuel)%nat ->
  room b (List.length (flat_map (fun l => call_text (l ++ [10])) lines) + n) ->
  load_from fuel (Some b) (file_of lines) = Some (b ++ flat_map (fun l => call_text (l ++ [10])) lines) /\
  room (b ++ flat_map (fun l => call_text (l ++ [10])) lines) n.
Proof.
  induction lines as [|l lines IH]; intros fuel b n F L R; cbn [file_of flat_map] in *.
  - rewrite app_nil_r. destruct fuel; auto.
  - inversion F as [|? ? [Ll Fl] F']; subst. rewrite !app_length in L. cbn in L.
    destruct fuel as [|fuel]; [lia|]. rewrite <- app_assoc. cbn [app].
    assert (Fl' : Forall (fun c => c <> 10) l) by (eapply Forall_impl; [|exact Fl]; cbn; tauto).
    assert (F0 : Forall (fun c => c <> 0) (l ++ [10])) by (apply Forall_app; split; [eapply Forall_impl; [|exact Fl]; cbn; tauto|repeat constructor; lia]).
    fold (file_of lines). rewrite load_cons, fgets_line by (auto; change (MAX_LINE_LEN - 1) with 199; lia).
    rewrite !app_length in R.
    destruct (write_line_ok (l ++ [10]) b (List.length (flat_map (fun l => call_text (l ++ [10])) lines) + n) F0) as [-> R1]; [unfold room in *; lia|].
    destruct (IH fuel (b ++ call_text (l ++ [10])) n F') as [-> R2]; [fold (file_of lines) in L; lia|exact R1|].
    rewrite <- !app_assoc in *. auto.
Qed.

Lemma strip_app p t : strip p (p ++ t) = Some t.
Proof. induction p; cbn; [reflexivity|]. rewrite Z.eqb_refl. exact IHp. Qed.
Lemma literal_escaped l : forall k, Forall (fun c => c <> 0 /\ c <> 10 /\ c <> 92) l ->
  literal_value false (escaped (l ++ [10]) ++ 92 :: 110 :: 34 :: k) = Some (l ++ [10], k).
Proof.
  induction l as [|c l IH]; intros k F; [reflexivity|]. inversion F as [|? ? (N0 & N10 & N92) F']; subst.
  cbn [app escaped]. destruct (Z.eqb_spec c 34) as [->|N].
  - cbn [app literal_value]. cbn. rewrite IH by exact F'. reflexivity.
  - destruct (Z.eqb_spec c 10); [congruence|]. cbn [app literal_value].
    destruct (Z.eqb_spec c 34); [congruence|]. destruct (Z.eqb_spec c 92); [congruence|]. destruct (Z.eqb_spec c 10); [congruence|].
    rewrite IH by exact F'. reflexivity.
Qed.
Lemma upto_nul_id l : Forall (fun c => c <> 0) l -> upto_nul l = l.
Proof. induction 1 as [|c l H _ IH]; cbn; [reflexivity|]. destruct (Z.eqb_spec c 0); congruence. Qed.
Lemma calls_ok lines : Forall line_ok lines -> calls (flat_map (fun l => call_text (l ++ [10])) lines ++ epilogue) (file_of lines).
Proof.
  induction 1 as [|l lines [Ll Fl] F IH]; cbn [flat_map file_of app]; [constructor|].
  assert (F0 : Forall (fun c => c <> 0) (l ++ [10])) by (apply Forall_app; split; [eapply Forall_impl; [|exact Fl]; cbn; tauto|repeat constructor; lia]).
  rewrite <- (upto_nul_id _ F0). rewrite upto_nul_id at 1 by exact F0.
  unfold call_text. rewrite <- !app_assoc. eapply calls_more.
  - apply strip_app.
  - change ([92; 110] ++ close_call ++ ?x) with (92 :: 110 :: 34 :: ((bytes ");" ++ [10]) ++ x)). apply literal_escaped. exact Fl.
  - apply strip_app.
  - exact IH.
Qed.

Fixpoint count (c : Z) (t : text) : Z := match t with [] => 0 | d :: r => (if d =? c then 1 else 0) + count c r end.
Lemma escaped_length l : Forall (fun c => c <> 10) l -> Z.of_nat (List.length (escaped (l ++ [10]))) = Z.of_nat (List.length l) + count 34 l.
Proof.
  induction 1 as [|c l H _ IH]; [reflexivity|]. cbn [app escaped count]. rewrite app_length.
  destruct (Z.eqb_spec c 34); cbn [List.length]; [lia|]. destruct (Z.eqb_spec c 10); [congruence|]. cbn [List.length]. lia.
Qed.
Lemma count_app c a b : count c (a ++ b) = count c a + count c b.
Proof. induction a; cbn; lia. Qed.
Lemma body_length lines : Forall line_ok lines ->
  Z.of_nat (List.length (flat_map (fun l => call_text (l ++ [10])) lines)) =
  Z.of_nat (List.length (file_of lines)) + count 34 (file_of lines) + 12 * Z.of_nat (List.length lines).
Proof.
  induction 1 as [|l lines [Ll Fl] F IH]; cbn [flat_map file_of]; [reflexivity|].
  rewrite !app_length. unfold call_text at 1. rewrite !app_length, !count_app. cbn [List.length]. fold (file_of lines).
  assert (E : Z.of_nat (List.length (escaped (l ++ [10]))) = Z.of_nat (List.length l) + count 34 l)
    by (apply escaped_length; eapply Forall_impl; [|exact Fl]; cbn; tauto).
  change (List.length open_call) with 7%nat. change (List.length close_call) with 4%nat. cbn [count]. change (10 =? 34) with false. cbv iota. lia.
Qed.

(** A file made of lines of fewer than 199 characters, without NUL and backslash, is embedded unchanged,
    as long as it fits: quotes count twice and every line costs 12 characters more. *)
Theorem C42_embed_partial : forall lines, Forall line_ok lines ->
  let f := file_of lines in
  Z.of_nat (List.length f) + count 34 f + 12 * Z.of_nat (List.length lines) <= 65000 ->
  exists out, inline f = Some out /\ embeds out f.
Proof.
  intros lines F f L. unfold inline.
  destruct (write_str_ok prologue [] (List.length (flat_map (fun l => call_text (l ++ [10])) lines) + 2)) as [-> R1];
    [apply nonzero_b; reflexivity| |].
  { pose proof (body_length lines F) as E. fold f in E. unfold room. rewrite Nat2Z.inj_add, Nat2Z.inj_add, E.
    assert (Z.of_nat (List.length prologue) <= 500) by (vm_compute; congruence). change MAX_SIZE with 65536. cbn [List.length]. lia. }
  cbn [app] in *. destruct (load_ok lines (List.length f) prologue 2 F) as [E R2]; [reflexivity|exact R1|]. fold f in E. rewrite E.
  destruct (write_str_ok epilogue (prologue ++ flat_map (fun l => call_text (l ++ [10])) lines) 0) as [E2 _];
    [apply nonzero_b; reflexivity|exact R2|].
  rewrite E2. eexists. split; [reflexivity|].
  exists (flat_map (fun l => call_text (l ++ [10])) lines ++ epilogue). split; [rewrite <- app_assoc; apply strip_app|apply calls_ok; exact F].
Qed.
Print Assumptions C42_embed_partial.

Definition q : string := String (Ascii.ascii_of_nat 34) EmptyString.
Definition bsn : string := String (Ascii.ascii_of_nat 92) "n"%string.
(** lib/c.c itself has backslashes.  Line 396 of lib/c.c: the two characters backslash n inside the string
    come out as one newline. *)
Definition line396 : text := bytes ("    printf(" ++ q ++ "Abnormal program termination" ++ bsn ++ q ++ ");" ++ nl)%string.
Definition line396' : text := bytes ("    printf(" ++ q ++ "Abnormal program termination" ++ nl ++ q ++ ");" ++ nl)%string.
Theorem C42_backslash_refuted : exists out, inline line396 = Some out /\ embeds out line396' /\ line396' <> line396.
Proof.
  eexists. split; [vm_compute; reflexivity|]. split; [|vm_compute; congruence].
  eexists. split; [vm_compute; reflexivity|].
  assert (E : line396' = upto_nul line396' ++ []) by (vm_compute; reflexivity). rewrite E.
  eapply calls_more; [vm_compute; reflexivity|vm_compute; reflexivity|vm_compute; reflexivity|constructor].
Qed.
Print Assumptions C42_backslash_refuted.

(** A line of 199 characters or more is cut: here 199 letters give an extra empty line. *)
Theorem C42_long_line_refuted :
  exists out, inline (repeat 120 199 ++ [10]) = Some out /\ embeds out (repeat 120 199 ++ [10; 10]).
Proof.
  eexists. split; [vm_compute; reflexivity|].
  eexists. split; [vm_compute; reflexivity|].
  assert (E : repeat 120 199 ++ [10; 10] = upto_nul (repeat 120 199 ++ [10]) ++ upto_nul [10] ++ []) by (vm_compute; reflexivity). rewrite E.
  eapply calls_more; [vm_compute; reflexivity|vm_compute; reflexivity|vm_compute; reflexivity|].
  eapply calls_more; [vm_compute; reflexivity|vm_compute; reflexivity|vm_compute; reflexivity|constructor].
Qed.
Print Assumptions C42_long_line_refuted.

(** A missing newline at the end of the file is added. *)
Theorem C42_last_line_refuted : exists out, inline (bytes "x") = Some out /\ embeds out (bytes "x" ++ [10]).
Proof.
  eexists. split; [vm_compute; reflexivity|]. eexists. split; [vm_compute; reflexivity|].
  change (bytes "x" ++ [10]) with (upto_nul [120; 10] ++ []).
  eapply calls_more; [vm_compute; reflexivity|vm_compute; reflexivity|vm_compute; reflexivity|constructor].
Qed.
Print Assumptions C42_last_line_refuted.

(* what a successful run has written *)
Lemma write_char_inv b c r : write_char b c = Some r -> exists b0, b = Some b0 /\ r = b0 ++ [c] /\ Z.of_nat (List.length r) <= MAX_SIZE.
Proof.
  unfold write_char. destruct b as [b0|]; [|discriminate]. destruct (Z.ltb_spec (Z.of_nat (List.length b0)) MAX_SIZE); [|discriminate].
  intros [= <-]. exists b0. rewrite app_length. cbn [List.length]. repeat split; auto; lia.
Qed.
Lemma write_str_inv s : forall b r, Forall (fun c => c <> 0) s -> write_str b s = Some r ->
  exists b0, b = Some b0 /\ r = b0 ++ s /\ (s <> [] -> Z.of_nat (List.length r) <= MAX_SIZE).
Proof.
  induction s as [|c s IH]; intros b r F E; cbn [write_str] in E; [exists r; rewrite app_nil_r; repeat split; [assumption|congruence]|].
  inversion F as [|? ? N F']; subst. destruct (Z.eqb_spec c 0); [congruence|].
  destruct (IH _ _ F' E) as (b1 & E1 & -> & L). destruct (write_char_inv _ _ _ E1) as (b0 & -> & -> & L0).
  exists b0. rewrite <- app_assoc in *. repeat split. intros _. destruct s; [exact L0|apply L; discriminate].
Qed.
Lemma write_escaped_inv s : forall b r, Forall (fun c => c <> 0) s -> write_escaped b s = Some r -> exists b0, b = Some b0 /\ r = b0 ++ escaped s.
Proof.
  induction s as [|c s IH]; intros b r F E; cbn [write_escaped escaped] in *; [exists r; rewrite app_nil_r; auto|].
  inversion F as [|? ? N F']; subst. destruct (Z.eqb_spec c 0); [congruence|]. destruct (Z.eqb_spec c 34).
  - destruct (IH _ _ F' E) as (b1 & E1 & ->). destruct (write_char_inv _ _ _ E1) as (b2 & E2 & -> & _).
    destruct (write_char_inv _ _ _ E2) as (b0 & -> & -> & _). exists b0. rewrite <- !app_assoc. auto.
  - destruct (Z.eqb_spec c 10); cbn [negb] in E; [exact (IH _ _ F' E)|].
    destruct (IH _ _ F' E) as (b1 & E1 & ->). destruct (write_char_inv _ _ _ E1) as (b0 & -> & -> & _). exists b0. rewrite <- !app_assoc. auto.
Qed.
Lemma write_line_inv l b r : Forall (fun c => c <> 0) l -> write_line b l = Some r -> exists b0, b = Some b0 /\ r = b0 ++ call_text l.
Proof.
  intros F E. unfold write_line in E.
  destruct (write_str_inv close_call _ _ ltac:(apply nonzero_b; reflexivity) E) as (b1 & E1 & -> & _).
  destruct (write_char_inv _ _ _ E1) as (b2 & E2 & -> & _). destruct (write_char_inv _ _ _ E2) as (b3 & E3 & -> & _).
  destruct (write_escaped_inv _ _ _ F E3) as (b4 & E4 & ->).
  destruct (write_str_inv open_call _ _ ltac:(apply nonzero_b; reflexivity) E4) as (b0 & -> & -> & _).
  exists b0. unfold call_text. rewrite <- !app_assoc. auto.
Qed.
Lemma load_inv lines : forall fuel b r, Forall line_ok lines -> load_from fuel b (file_of lines) = Some r ->
  exists b0, b = Some b0 /\ r = b0 ++ flat_map (fun l => call_text (l ++ [10])) lines.
Proof.
  induction lines as [|l lines IH]; intros fuel b r F E; cbn [file_of flat_map] in *.
  - rewrite load_nil in E. exists r. rewrite app_nil_r. auto.
  - inversion F as [|? ? [Ll Fl] F']; subst. rewrite <- app_assoc in E. cbn [app] in E. fold (file_of lines) in E.
    destruct fuel as [|fuel]; [destruct l; discriminate|].
    assert (Fl' : Forall (fun c => c <> 10) l) by (eapply Forall_impl; [|exact Fl]; cbn; tauto).
    assert (F0 : Forall (fun c => c <> 0) (l ++ [10])) by (apply Forall_app; split; [eapply Forall_impl; [|exact Fl]; cbn; tauto|repeat constructor; lia]).
    rewrite load_cons, fgets_line in E by (auto; change (MAX_LINE_LEN - 1) with 199; lia).
    destruct (IH _ _ _ F' E) as (b1 & E1 & ->). destruct (write_line_inv _ _ _ F0 E1) as (b0 & -> & ->).
    exists b0. rewrite <- !app_assoc. auto.
Qed.
(** The size of the buffer is not checked: every larger file overruns it. *)
Theorem C42_size_refuted : forall lines, Forall line_ok lines ->
  let f := file_of lines in
  65536 < Z.of_nat (List.length f) + count 34 f + 12 * Z.of_nat (List.length lines) -> inline f = None.
Proof.
  intros lines F f L. destruct (inline f) as [out|] eqn:E; [exfalso|reflexivity]. unfold inline in E.
  destruct (write_str_inv epilogue _ _ ltac:(apply nonzero_b; reflexivity) E) as (b1 & E1 & -> & B).
  assert (B' : Z.of_nat (List.length (b1 ++ epilogue)) <= MAX_SIZE) by (apply B; vm_compute; congruence).
  destruct (load_inv _ _ _ _ F E1) as (b0 & E0 & ->).
  pose proof (body_length lines F) as E2. fold f in E2. rewrite !app_length in B'. change MAX_SIZE with 65536 in B'. lia.
Qed.
Print Assumptions C42_size_refuted.

(** a non-trivial instance *)
Example C42_sample :
  let lines := [bytes ("void f() { printf(" ++ q ++ "hello" ++ q ++ "); }")%string; bytes ""; bytes "}"] in
  Forall line_ok lines /\ Z.of_nat (List.length (file_of lines)) + count 34 (file_of lines) + 12 * 3 <= 65000.
Proof.
  split; [|vm_compute; congruence].
  repeat (apply Forall_cons; [split; [vm_compute; reflexivity|rewrite Forall_forall; intros c Hc; vm_compute in Hc; intuition lia]|]). apply Forall_nil.
Qed.
