(** C19: the source buffer keeps every byte.  C45: inclusion. *)
From Coq Require Import String.
From Verif.Base Require Import Int32.
From Verif.Data Require Import SourceBuf.
Open Scope Z_scope.
Open Scope list_scope.

(** *** C19 specification *)
Fixpoint push_all (junk : Z -> list Z) (s : option source) (l : list Z) : option source :=
  match l with
  | [] => s
  | c :: r => push_all junk (match s with Some s => source_push junk s c | None => None end) r
  end.
Definition holds (s : source) (text : list Z) : Prop :=
  so_size s = Z.of_nat (List.length text) /\
  firstn (List.length text) (so_elements s) = text /\
  Z.of_nat (List.length (so_elements s)) = so_capacity s /\ so_size s <= so_capacity s.
Definition allocates (junk : Z -> list Z) : Prop :=
  forall n, 0 <= n -> Z.of_nat (List.length (junk n)) = n.

Lemma write_at_spec l k new : 0 <= k -> k + Z.of_nat (List.length new) <= Z.of_nat (List.length l) ->
  exists r, write_at l k new = Some r /\ List.length r = List.length l /\
    firstn (Z.to_nat k + List.length new) r = firstn (Z.to_nat k) l ++ new.
Proof.
  intros Hk H. unfold write_at.
  replace ((0 <=? k) && (k + Z.of_nat (List.length new) <=? Z.of_nat (List.length l))) with true by lia.
  eexists. split; [reflexivity|]. split.
  - rewrite !app_length, firstn_length_le, skipn_length by lia. lia.
  - rewrite app_assoc, firstn_app.
    rewrite firstn_all2 by (rewrite app_length, firstn_length_le; lia).
    rewrite app_length, firstn_length_le by lia.
    rewrite Nat.sub_diag. cbn. apply app_nil_r.
Qed.

Lemma push_ok junk s text c : allocates junk -> holds s text -> 1 <= so_capacity s ->
  Z.of_nat (List.length text) < 2 ^ 30 ->
  exists s', source_push junk s c = Some s' /\ holds s' (text ++ [c]) /\ 1 <= so_capacity s'.
Proof.
  intros HJ (H1 & H2 & H3 & H4) H5 Hlen.
  assert (exists s1, source_expand junk s = Some s1 /\ holds s1 text /\ so_size s1 < so_capacity s1)
    as (s1 & E1 & (K1 & K2 & K3 & K4) & K5).
  { unfold source_expand. destruct (Z.ltb_spec (so_size s) (so_capacity s)).
    - exists s. split; [reflexivity|]. split; [|assumption]. repeat split; auto.
    - assert (ishl (so_capacity s) 1 = 2 * so_capacity s) as ->.
      { unfold ishl. change (2 ^ 1) with 2. rewrite wrap_id by (unfold is_i32; lia). lia. }
      assert (HL : List.length (firstn (Z.to_nat (so_size s)) (so_elements s)) = List.length text)
        by (rewrite firstn_length_le; lia).
      destruct (write_at_spec (junk (2 * so_capacity s)) 0 (firstn (Z.to_nat (so_size s)) (so_elements s)))
        as (r & -> & R1 & R2).
      { lia. }
      { rewrite HL, HJ; lia. }
      eexists. split; [reflexivity|]. unfold holds. cbn [so_size so_capacity so_elements].
      rewrite HL in R2. cbn in R2. rewrite R1, HJ by lia.
      replace (Z.to_nat (so_size s)) with (List.length text) in R2 by lia. rewrite H2 in R2.
      repeat split; auto; lia. }
  unfold source_push. rewrite E1.
  destruct (write_at_spec (so_elements s1) (so_size s1) [c]) as (r & -> & R1 & R2).
  { lia. } { cbn [List.length]. lia. }
  eexists. split; [reflexivity|]. unfold holds. cbn [so_size so_capacity so_elements].
  rewrite app_length. cbn [List.length] in *. rewrite K1, Nat2Z.id, K2 in R2. rewrite R1.
  repeat split; auto; lia.
Qed.

Theorem C19_push : forall junk cap l, allocates junk -> 1 <= cap -> Z.of_nat (List.length l) < 2 ^ 30 ->
  exists s, push_all junk (Some (create_source junk cap)) l = Some s /\ holds s l.
Proof.
  intros junk cap l HJ Hc Hl.
  assert (G : forall l pre s, holds s pre -> 1 <= so_capacity s ->
    Z.of_nat (List.length (pre ++ l)) < 2 ^ 30 ->
    exists s', push_all junk (Some s) l = Some s' /\ holds s' (pre ++ l)).
  { clear l Hl. induction l as [|c l IH]; intros pre s Hh Hs Hlen.
    - exists s. rewrite app_nil_r. auto.
    - cbn [push_all]. rewrite app_length in Hlen. cbn [List.length] in Hlen.
      destruct (push_ok junk s pre c HJ Hh Hs ltac:(lia)) as (s' & -> & Hh' & Hs').
      replace (pre ++ c :: l) with ((pre ++ [c]) ++ l) by (rewrite <- app_assoc; reflexivity).
      apply IH; auto. rewrite !app_length. cbn [List.length]. lia. }
  apply (G l [] (create_source junk cap)); auto.
  unfold holds, create_source. cbn. rewrite HJ by lia. repeat split; lia.
Qed.
Print Assumptions C19_push.

(** with an initial capacity of 0 doubling does not help: the first byte is written
    outside the allocation *)
Theorem C19_zero_capacity_refuted : forall junk c, allocates junk ->
  source_push junk (create_source junk 0) c = None.
Proof.
  intros junk c HJ. pose proof (HJ 0 ltac:(lia)) as H. unfold source_push, source_expand, create_source. cbn.
  change (ishl 0 1) with 0. unfold write_at. cbn [Z.to_nat firstn List.length app skipn Nat.add].
  replace ((0 <=? 0) && (0 + Z.of_nat 0 <=? Z.of_nat (List.length (junk 0)))) with true by lia.
  cbn [so_elements so_size skipn app].
  replace ((0 <=? 0) && (0 + Z.of_nat 1 <=? Z.of_nat (List.length (junk 0)))) with false by lia.
  reflexivity.
Qed.
Print Assumptions C19_zero_capacity_refuted.

Example C19_case : match push_all (fun n => List.repeat 7 (Z.to_nat n)) 
   (Some (create_source (fun n => List.repeat 7 (Z.to_nat n)) 2)) [1; 2; 3; 4; 5] with
  | Some s => (so_size s, so_capacity s, so_elements s) = (5, 8, [1; 2; 3; 4; 5; 7; 7; 7]) | None => False end.
Proof. reflexivity. Qed.

(** *** C45: what a source file with inclusions stands for *)

(** a text line: ends with its only newline, or is a last line without one; short
    enough for the reader's line buffer; no NUL *)
Definition line (l : list Z) : Prop :=
  l <> [] /\ (List.length l <= 255)%nat /\ ~ In 0 l /\
  exists body nl, l = body ++ nl /\ ~ In 10 body /\ (nl = [10] \/ nl = []).
Definition complete (l : list Z) : Prop := exists body, l = body ++ [10].
Definition lines_of (text : list Z) (ls : list (list Z)) : Prop :=
  text = concat ls /\ Forall line ls /\
  forall a l b, ls = a ++ l :: b -> b <> [] -> complete l.

Definition quote : list Z := [34].
Definition directive (name : list Z) : list Z := chars "#include " ++ quote ++ name ++ quote ++ [10].

(** [expands fs path text]: the text that file [path] contributes.  An inclusion line
    in file DIR/FILE stands for the expansion of DIR/NAME; any other line for itself. *)
Inductive expands (fs : list Z -> option (list Z)) : list Z -> list Z -> Prop :=
| ex_file : forall path contents ls out, fs path = Some contents -> lines_of contents ls ->
    ex_lines fs path ls out -> expands fs path out
with ex_lines (fs : list Z -> option (list Z)) : list Z -> list (list Z) -> list Z -> Prop :=
| el_nil : forall path, ex_lines fs path [] []
| el_text : forall path l ls out, (forall r, l <> chars "#include " ++ quote ++ r) ->
    ex_lines fs path ls out -> ex_lines fs path (l :: ls) (l ++ out)
| el_include : forall dir file name ls inc out, ~ In 47 file -> dir <> [] ->
    ~ In 0 dir -> ~ In 0 name ->
    expands fs (dir ++ [47] ++ name) inc -> ex_lines fs (dir ++ [47] ++ file) ls out ->
    ex_lines fs (dir ++ [47] ++ file) (directive name :: ls) (inc ++ out).

Scheme expands_mut := Induction for expands Sort Prop
with ex_lines_mut := Induction for ex_lines Sort Prop.

Lemma take_line_spec : forall n body rest, ~ In 10 body -> (List.length body < n)%nat ->
  take_line n (body ++ [10] ++ rest) = (body ++ [10], rest).
Proof.
  induction n as [|n IH]; intros body rest Hb Hl; [lia|].
  destruct body as [|c body]; cbn.
  - reflexivity.
  - destruct (Z.eqb_spec c 10) as [->|N]; [exfalso; apply Hb; left; reflexivity|].
    cbn [app] in IH. rewrite IH; [reflexivity| |cbn in Hl; lia]. intros H; apply Hb; right; exact H.
Qed.
Lemma take_line_last : forall n body, ~ In 10 body -> (List.length body <= n)%nat ->
  take_line n body = (body, []).
Proof.
  induction n as [|n IH]; intros body Hb Hl.
  - destruct body; [reflexivity|cbn in Hl; lia].
  - destruct body as [|c body]; cbn; [reflexivity|].
    destruct (Z.eqb_spec c 10) as [->|N]; [exfalso; apply Hb; left; reflexivity|].
    rewrite IH; [reflexivity| |cbn in Hl; lia]. intros H; apply Hb; right; exact H.
Qed.

Lemma fgets_line l ls : line l -> (ls <> [] -> complete l) -> 
  fgets (concat (l :: ls)) = Some (l, concat ls) \/ False.
Proof.
  intros (Hne & Hlen & _ & body & nl & -> & Hb & Hnl) Hc. left. cbn [concat].
  unfold fgets. destruct ((body ++ nl) ++ concat ls) eqn:E.
  { destruct body; destruct nl; try discriminate. contradiction. }
  rewrite <- E. f_equal. change (Z.to_nat (MAX_LINE_LEN - 1)) with 255%nat.
  destruct Hnl as [-> | ->].
  - rewrite <- app_assoc. apply take_line_spec; [exact Hb|]. rewrite app_length in Hlen. cbn in Hlen. lia.
  - destruct ls as [|l0 ls].
    + cbn [concat]. rewrite !app_nil_r. apply take_line_last; [exact Hb|].
      rewrite app_nil_r in Hlen. exact Hlen.
    + exfalso. destruct (Hc ltac:(discriminate)) as [b' Hb']. rewrite app_nil_r in Hb'.
      apply Hb. rewrite Hb'. apply in_or_app. right. left. reflexivity.
Qed.

Lemma cstr_id l : ~ In 0 l -> cstr l = l.
Proof.
  induction l as [|c l IH]; intros H; cbn; [reflexivity|].
  destruct (Z.eqb_spec c 0) as [->|]; [exfalso; apply H; left; reflexivity|].
  rewrite IH; [reflexivity|]. intros K; apply H; right; exact K.
Qed.

Lemma is_include_iff l : is_include l = true <-> exists r, l = chars "#include " ++ quote ++ r.
Proof.
  unfold is_include. destruct (list_eq_dec Z.eq_dec (firstn 10 l) (chars "#include " ++ [34])) as [E|N].
  - split; [|reflexivity]. intros _. exists (skipn 10 l). rewrite <- (firstn_skipn 10 l) at 1. rewrite E.
    rewrite <- app_assoc. reflexivity.
  - split; [discriminate|]. intros [r ->]. exfalso. apply N. reflexivity.
Qed.

Lemma slash_spec (dir file : list Z) : ~ In 47 file -> dir <> [] ->
  forall c, (List.length dir <= c < List.length (dir ++ [47%Z] ++ file))%nat ->
  slash_from c (dir ++ [47] ++ file) = List.length dir.
Proof.
  intros Hf Hd. induction c as [|c IH]; intros Hc.
  - destruct dir; [contradiction|cbn in Hc; lia].
  - cbn [slash_from].
    destruct (Nat.eq_dec (S c) (List.length dir)) as [E|N].
    + rewrite E. rewrite app_nth2 by lia. rewrite Nat.sub_diag. reflexivity.
    + assert (nth (S c) (dir ++ [47] ++ file) 0 =? 47 = false) as ->.
      { rewrite app_nth2 by lia. destruct (S c - List.length dir)%nat as [|k] eqn:Ek; [lia|].
        cbn [app nth]. apply Z.eqb_neq. intros Hx. apply Hf. rewrite <- Hx. apply nth_In.
        rewrite !app_length in Hc. cbn [List.length] in Hc. lia. }
      apply IH. lia.
Qed.

Lemma path_spec (g : Z) (dir file name : list Z) : ~ In 47 file -> dir <> [] -> ~ In 0 dir -> ~ In 0 name ->
  inclusion_path g (dir ++ [47] ++ file) (directive name) = Some (dir ++ [47] ++ name).
Proof.
  intros Hf Hd H0 Hn. unfold inclusion_path.
  rewrite slash_spec by (auto; rewrite !app_length; cbn [List.length]; lia).
  assert (List.length (directive name) = (12 + List.length name)%nat) as ->.
  { unfold directive. rewrite !app_length. cbn. lia. }
  replace (Z.of_nat (12 + List.length name) - 11 <=? 0) with false by lia.
  assert (match List.length dir with O => [g] | S _ => firstn (List.length dir + 1) (dir ++ [47] ++ file) end
          = dir ++ [47]) as ->.
  { destruct (List.length dir) eqn:E; [destruct dir; [contradiction|discriminate]|]. rewrite <- E.
    rewrite app_assoc, firstn_app. rewrite firstn_all2 by (rewrite app_length; cbn; lia).
    rewrite app_length. cbn [List.length]. rewrite Nat.sub_diag. cbn. apply app_nil_r. }
  replace (Z.to_nat (Z.of_nat (12 + List.length name) - 11 - 1)) with (List.length name) by lia.
  assert (skipn 10 (directive name) = name ++ quote ++ [10]) as -> by reflexivity.
  rewrite firstn_app, firstn_all, Nat.sub_diag. cbn [firstn]. rewrite app_nil_r.
  rewrite cstr_id; [rewrite <- app_assoc; reflexivity|].
  rewrite !in_app_iff. cbn. intuition lia.
Qed.

Lemma append_ok s pre l : holds s pre -> so_size s + Z.of_nat (List.length l) < so_capacity s ->
  exists s', append s l = Some s' /\ holds s' (pre ++ l) /\ so_capacity s' = so_capacity s.
Proof.
  intros (H1 & H2 & H3 & H4) Hlt. unfold append.
  destruct (write_at_spec (so_elements s) (so_size s) (l ++ [0])) as (r & -> & R1 & R2).
  { lia. } { rewrite app_length. cbn [List.length]. lia. }
  eexists. split; [reflexivity|]. cbn [so_capacity]. split; [|reflexivity].
  unfold holds. cbn [so_size so_elements so_capacity]. rewrite app_length in *. cbn [List.length] in *.
  rewrite H1, Nat2Z.id, H2 in R2. rewrite R1.
  repeat split; auto; try lia.
  apply (f_equal (firstn (List.length pre + List.length l))) in R2.
  rewrite firstn_firstn in R2. replace (Nat.min _ _) with (List.length pre + List.length l)%nat in R2 by lia.
  rewrite R2, app_assoc, firstn_app, firstn_all2 by (rewrite app_length; lia).
  rewrite app_length, Nat.sub_diag. cbn. apply app_nil_r.
Qed.

(** more fuel does not change a result *)
Lemma load_fuel fs g : forall n m, (n <= m)%nat -> forall file rest s s',
  load_lines fs g n file rest s = Some s' -> load_lines fs g m file rest s = Some s'.
Proof.
  induction n as [|n IH]; intros m Hm file rest s s' H; [discriminate|].
  destruct m as [|m]; [lia|]. cbn [load_lines] in *.
  destruct (fgets rest) as [[l r]|]; [|exact H].
  destruct (is_include (cstr l)).
  - destruct (inclusion_path _ _ _) as [path|]; [|discriminate].
    destruct (fs path) as [contents|]; [|discriminate].
    destruct (load_lines fs g n path contents s) as [s1|] eqn:E; [|discriminate].
    rewrite (IH m ltac:(lia) _ _ _ _ E). eapply IH; [lia|exact H].
  - destruct (append s (cstr l)) as [s1|]; [|discriminate]. eapply IH; [lia|exact H].
Qed.

Theorem C45_inclusion : forall fs garbage path out s pre,
  expands fs path out -> holds s pre ->
  so_size s + Z.of_nat (List.length out) < so_capacity s ->
  exists fuel s', load_source_file fs garbage fuel path s = Some s' /\
    holds s' (pre ++ out) /\ so_capacity s' = so_capacity s.
Proof.
  intros fs g path out s pre He. revert s pre.
  refine (expands_mut fs
    (fun path out _ => forall s pre, holds s pre ->
       so_size s + Z.of_nat (List.length out) < so_capacity s ->
       exists fuel s', load_source_file fs g fuel path s = Some s' /\
         holds s' (pre ++ out) /\ so_capacity s' = so_capacity s)
    (fun path ls out _ => forall s pre, holds s pre ->
       so_size s + Z.of_nat (List.length out) < so_capacity s -> Forall line ls ->
       (forall a l b, ls = a ++ l :: b -> b <> [] -> complete l) ->
       exists fuel s', load_lines fs g fuel path (concat ls) s = Some s' /\
         holds s' (pre ++ out) /\ so_capacity s' = so_capacity s)
    _ _ _ _ path out He).
  - intros p contents ls o Hfs (Ht & Hls & Hco) Hex IH s pre Hh Hsz.
    destruct (IH s pre Hh Hsz Hls Hco) as (n & s' & E & K). exists n, s'. split; [|exact K].
    unfold load_source_file. rewrite Hfs, Ht. exact E.
  - intros p s pre Hh Hsz _ _. exists 1%nat, s. rewrite app_nil_r. auto.
  - intros p l ls o Hni Hex IH s pre Hh Hsz Hls Hco. inversion Hls as [|? ? Hl Hls']; subst.
    rewrite app_length, Nat2Z.inj_add in Hsz.
    destruct (append_ok s pre l Hh ltac:(lia)) as (s1 & E1 & Hh1 & C1).
    destruct (IH s1 (pre ++ l) Hh1) as (n & s' & E & K & C).
    + destruct Hh1 as [S1 _]. destruct Hh as [S0 _]. rewrite C1. rewrite S1, app_length. lia.
    + exact Hls'.
    + intros a l0 b -> Hb. apply (Hco (l :: a) l0 b); auto.
    + exists (S n), s'. split; [|split; [rewrite app_assoc; exact K|congruence]].
      cbn [load_lines]. destruct (fgets_line l ls Hl) as [->|[]].
      { intros Hls0. destruct ls; [contradiction|]. apply (Hco [] l (l0 :: ls) eq_refl Hls0). }
      rewrite cstr_id by (destruct Hl as (_ & _ & H0 & _); exact H0).
      destruct (is_include l) eqn:Ei.
      { apply is_include_iff in Ei. destruct Ei as [r Er]. destruct (Hni r Er). }
      rewrite E1. exact E.
  - intros dir file name ls inc o Hf Hd H0 Hn Hexp IHe Hex IHl s pre Hh Hsz Hls Hco.
    inversion Hls as [|? ? Hl Hls']; subst. rewrite app_length, Nat2Z.inj_add in Hsz.
    destruct (IHe s pre Hh ltac:(lia)) as (n1 & s1 & E1 & Hh1 & C1).
    destruct (IHl s1 (pre ++ inc) Hh1) as (n2 & s2 & E2 & Hh2 & C2).
    + destruct Hh1 as [S1 _]. destruct Hh as [S0 _]. rewrite C1, S1, app_length. lia.
    + exact Hls'.
    + intros a l0 b -> Hb. apply (Hco (directive name :: a) l0 b); auto.
    + exists (S (Nat.max n1 n2)), s2. split; [|split; [rewrite app_assoc; exact Hh2|congruence]].
      cbn [load_lines]. destruct (fgets_line (directive name) ls Hl) as [->|[]].
      { intros Hls0. destruct ls; [contradiction|]. apply (Hco [] _ (l :: ls) eq_refl Hls0). }
      rewrite cstr_id by (destruct Hl as (_ & _ & Hz & _); exact Hz).
      assert (is_include (directive name) = true) as ->
        by (apply is_include_iff; exists (name ++ quote ++ [10]); reflexivity).
      rewrite path_spec by assumption. unfold load_source_file in E1.
      destruct (fs (dir ++ [47] ++ name)) as [contents|]; [|discriminate].
      rewrite (load_fuel fs g n1 _ (Nat.le_max_l _ _) _ _ _ _ E1).
      apply (load_fuel fs g n2); [apply Nat.le_max_r|exact E2].
Qed.
Print Assumptions C45_inclusion.

(** Findings. (a) A file named without a directory: the included path starts with an
    uninitialised byte. *)
Theorem C45_no_directory_refuted : forall g file name,
  ~ In 47 file -> ~ In 0 name -> g <> 0 ->
  inclusion_path g file (directive name) = Some (g :: name).
Proof.
  intros g file name Hf Hn Hg. unfold inclusion_path.
  assert (slash_from (List.length file - 1) file = O) as ->.
  { assert (forall c, (c < List.length file)%nat \/ c = O -> slash_from c file = O) as H.
    { induction c as [|c IH]; intros Hc; [reflexivity|]. cbn [slash_from].
      destruct Hc as [Hc|]; [|discriminate].
      destruct (Z.eqb_spec (nth (S c) file 0) 47) as [E|N].
      - exfalso. apply Hf. rewrite <- E. apply nth_In. exact Hc.
      - apply IH. left. lia. }
    apply H. lia. }
  assert (List.length (directive name) = (12 + List.length name)%nat) as ->.
  { unfold directive. rewrite !app_length. cbn. lia. }
  replace (Z.of_nat (12 + List.length name) - 11 <=? 0) with false by lia.
  replace (Z.to_nat (Z.of_nat (12 + List.length name) - 11 - 1)) with (List.length name) by lia.
  assert (skipn 10 (directive name) = name ++ quote ++ [10]) as -> by reflexivity.
  rewrite firstn_app, firstn_all, Nat.sub_diag. cbn [firstn]. rewrite app_nil_r.
  rewrite cstr_id; [reflexivity|]. cbn. intros [H|H]; [congruence|contradiction].
Qed.
Print Assumptions C45_no_directory_refuted.

(** (b) the copy into the buffer is not bounds-checked: one byte too many is written
    outside the allocation *)
Theorem C45_overflow_refuted : forall s l, holds s [] -> Z.of_nat (List.length l) >= so_capacity s ->
  append s l = None.
Proof.
  intros s l (H1 & H2 & H3 & H4) Hl. unfold append, write_at.
  replace ((0 <=? so_size s) && _) with false; [reflexivity|].
  rewrite app_length. cbn [List.length] in *. lia.
Qed.
Print Assumptions C45_overflow_refuted.

(** non-vacuity: d/a includes d/b between two lines *)
Definition demo_fs (p : list Z) : option (list Z) :=
  if list_eq_dec Z.eq_dec p (chars "d/a") then Some (chars "x" ++ [10] ++ directive (chars "b") ++ chars "y")
  else if list_eq_dec Z.eq_dec p (chars "d/b") then Some (chars "B" ++ [10]) else None.
Example C45_case : expands demo_fs (chars "d/a") (chars "x" ++ [10] ++ chars "B" ++ [10] ++ chars "y").
Proof.
  apply (ex_file _ _ (chars "x" ++ [10] ++ directive (chars "b") ++ chars "y")
           [chars "x" ++ [10]; directive (chars "b"); chars "y"]).
  - reflexivity.
  - split; [reflexivity|]. split.
    + repeat constructor; try (vm_compute; intuition congruence); try (cbn; lia).
      * exists (chars "x"), [10]. vm_compute; intuition congruence.
      * exists (chars "#include " ++ quote ++ chars "b" ++ quote), [10]. vm_compute; intuition congruence.
      * exists (chars "y"), []. vm_compute; intuition congruence.
    + intros a l b E Hb. destruct a as [|a0 [|a1 [|a2 a]]]; cbn in E; inversion E; subst.
      * exists (chars "x"). reflexivity.
      * exists (chars "#include " ++ quote ++ chars "b" ++ quote). reflexivity.
      * contradiction.
      * destruct a; discriminate.
  - change (chars "x" ++ [10] ++ chars "B" ++ [10] ++ chars "y") with
      ((chars "x" ++ [10]) ++ (chars "B" ++ [10]) ++ chars "y" ++ []).
    apply el_text; [intros r H; discriminate|].
    apply (el_include demo_fs (chars "d") (chars "a") (chars "b")); try (vm_compute; intuition congruence).
    + apply (ex_file _ _ (chars "B" ++ [10]) [chars "B" ++ [10]]).
      * reflexivity.
      * split; [reflexivity|]. split.
        -- repeat constructor; try (vm_compute; intuition congruence); try (cbn; lia).
           exists (chars "B"), [10]. vm_compute; intuition congruence.
        -- intros a l b E Hb. destruct a as [|a0 a]; cbn in E; inversion E; subst; [contradiction|].
           destruct a; discriminate.
      * change (chars "B" ++ [10]) with ((chars "B" ++ [10]) ++ []).
        apply el_text; [intros r H; discriminate|constructor].
    + apply el_text; [intros r H; discriminate|constructor].
Qed.
