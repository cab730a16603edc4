(** C52: an error message shows the line of the error, with a mark under the place (src/globals.c error). *)
From Verif.Data Require Import ErrorMsg.
Open Scope Z_scope.

(** *** Specification *)
(** position [pos] of [src] is character [k] of the line [line]; the end of the line counts as a place on it *)
Definition on_line (src : list Z) (pos : Z) (line : list Z) (k : nat) : Prop :=
  exists before after, src = before ++ line ++ 10 :: after /\ (before = [] \/ exists b, before = b ++ [10]) /\ ~ In 10 line /\
    pos = Z.of_nat (length before + k) /\ (k <= length line)%nat.
Definition marked (line : list Z) (k : nat) : list Z := line ++ [10] ++ repeat 32 k ++ here.

(** *** Proof *)
Lemma element_app a c r : element (a ++ c :: r) (Z.of_nat (length a)) = Some c.
Proof. unfold element. destruct (Z.ltb_spec (Z.of_nat (length a)) 0); [lia|]. rewrite Nat2Z.id. rewrite nth_error_app2, Nat.sub_diag by lia. reflexivity. Qed.
Lemma append_ok d c : (length d < 512)%nat -> append d c = Some (d ++ [c]).
Proof. intros H. unfold append. destruct (Nat.ltb_spec (length d) 512); [reflexivity|lia]. Qed.

(** going back over [l] *)
Lemma back_over l : forall fuel before rest, ~ In 10 l -> (length l < fuel)%nat ->
  back fuel (before ++ l ++ rest) (Z.of_nat (length before + length l) - 1) =
  back (fuel - length l) (before ++ l ++ rest) (Z.of_nat (length before) - 1).
Proof.
  induction l as [|c l IH] using rev_ind; intros fuel before rest N L.
  - cbn [length]. rewrite Nat.add_0_r, Nat.sub_0_r. reflexivity.
  - rewrite app_length in *. cbn [length] in *. destruct fuel as [|fuel]; [lia|]. cbn [back].
    destruct (Z.geb_spec (Z.of_nat (length before + (length l + 1)) - 1) 0); [|lia].
    replace (Z.of_nat (length before + (length l + 1)) - 1) with (Z.of_nat (length (before ++ l))) by (rewrite app_length; lia).
    rewrite <- app_assoc. rewrite app_assoc. cbn [app]. rewrite element_app.
    destruct (Z.eqb_spec c 10) as [->|_]; [exfalso; apply N; apply in_or_app; right; left; reflexivity|].
    rewrite <- app_assoc. rewrite app_length. specialize (IH fuel before (c :: rest)). rewrite IH; [|intros X; apply N; apply in_or_app; left; exact X|lia].
    f_equal. lia.
Qed.
Lemma copy_ok line : forall fuel before rest d, ~ In 10 line -> (length line < fuel)%nat -> (length d + length line < 512)%nat ->
  forall n, copy_line fuel (before ++ line ++ 10 :: rest) n (Z.of_nat (length before) - n) d = 
    (if Z.of_nat (length before) - n + Z.of_nat (length line) <? MAX_SOURCE then Some (d ++ line) else copy_line fuel (before ++ line ++ 10 :: rest) n (Z.of_nat (length before) - n) d).
Proof.
  induction line as [|c line IH]; intros fuel before rest d N F L n.
  - cbn [length app] in *. rewrite Z.add_0_r. destruct (Z.ltb_spec (Z.of_nat (length before) - n) MAX_SOURCE) as [B|B]; [|reflexivity]. destruct fuel as [|fuel]; [lia|]. cbn [copy_line].
    destruct (Z.ltb_spec (Z.of_nat (length before) - n) MAX_SOURCE); [|lia]. replace (n + (Z.of_nat (length before) - n)) with (Z.of_nat (length before)) by lia.
    rewrite element_app. rewrite Z.eqb_refl, app_nil_r. reflexivity.
  - destruct (Z.ltb_spec (Z.of_nat (length before) - n + Z.of_nat (length (c :: line))) MAX_SOURCE) as [B|B]; [|reflexivity]. cbn [length] in *. destruct fuel as [|fuel]; [lia|]. cbn [copy_line].
    destruct (Z.ltb_spec (Z.of_nat (length before) - n) MAX_SOURCE); [|lia]. replace (n + (Z.of_nat (length before) - n)) with (Z.of_nat (length before)) by lia.
    cbn [app]. rewrite element_app. destruct (Z.eqb_spec c 10) as [->|_]; [exfalso; apply N; left; reflexivity|]. rewrite append_ok by lia.
    specialize (IH fuel (before ++ [c]) rest (d ++ [c])). rewrite !app_length in IH. cbn [length] in IH.
    replace (Z.of_nat (length before) - n + 1) with (Z.of_nat (length before + 1) - n) by lia.
    replace (before ++ c :: line ++ 10 :: rest) with ((before ++ [c]) ++ line ++ 10 :: rest) by (rewrite <- app_assoc; reflexivity).
    rewrite IH; [|intros X; apply N; right; exact X|lia|lia]. destruct (Z.ltb_spec (Z.of_nat (length before + 1) - n + Z.of_nat (length line)) MAX_SOURCE); [|lia].
    rewrite <- app_assoc. reflexivity.
Qed.
Lemma pad_ok n : forall d, (length d + n <= 512)%nat -> pad n d = Some (d ++ repeat 32 n).
Proof.
  induction n as [|n IH]; intros d L; cbn [pad repeat]; [rewrite app_nil_r; reflexivity|]. rewrite append_ok by lia. rewrite IH by (rewrite app_length; cbn; lia). rewrite <- app_assoc. reflexivity.
Qed.

(** what is printed when the loop back ends before [line], with [k] spaces *)
Lemma after_back before line after fuel pos k : (before = [] \/ exists b, before = b ++ [10]) -> ~ In 10 line -> (length line + 1 + k + 20 <= 512)%nat ->
  back fuel (before ++ line ++ 10 :: after) pos = Some (Z.of_nat (length before) - 1) -> Z.to_nat (pos - Z.of_nat (length before)) = k ->
  match back fuel (before ++ line ++ 10 :: after) pos with
  | None => None
  | Some offset => match copy_line (length (before ++ line ++ 10 :: after) + 2) (before ++ line ++ 10 :: after) (offset + 1) 0 [] with
    | None => None
    | Some d => match append d 10 with None => None | Some d => match pad (Z.to_nat (pos - (offset + 1))) d with None => None
        | Some d => if (length d + length here + 1 <=? 512)%nat then Some (d ++ here) else None end end
    end
  end = Some (marked line k).
Proof.
  intros Hb N L E K. rewrite E. replace (Z.of_nat (length before) - 1 + 1) with (Z.of_nat (length before)) by lia.
  pose proof (copy_ok line (length (before ++ line ++ 10 :: after) + 2) before after [] N) as C. rewrite !app_length in C. cbn [length] in C.
  specialize (C ltac:(lia) ltac:(lia) (Z.of_nat (length before))). rewrite Z.sub_diag in C. rewrite !app_length. cbn [length]. rewrite C.
  destruct (Z.ltb_spec (0 + Z.of_nat (length line)) MAX_SOURCE) as [_|B]; [|unfold MAX_SOURCE in B; lia]. cbn [app].
  rewrite append_ok by lia. rewrite K. rewrite pad_ok by (rewrite app_length; cbn; lia).
  destruct (Nat.leb_spec (length ((line ++ [10]) ++ repeat 32 k) + length here + 1) 512) as [_|B]; [|rewrite !app_length, repeat_length in B; cbn in B; lia].
  unfold marked. rewrite <- !app_assoc. reflexivity.
Qed.

(** the place is a character of the line, and the text fits the 512 bytes: the line is shown, with a mark under the place *)
Theorem C52_diagnostic_partial : forall src pos line k, on_line src pos line k -> (k < length line)%nat -> (length line + k + 21 <= 512)%nat ->
  diagnostic src pos = Some (marked line k).
Proof.
  intros src pos line k (before & after & -> & Hb & N & -> & _) K L. unfold diagnostic. apply after_back; [exact Hb|exact N|lia| |lia].
  destruct (nth_error line k) as [c|] eqn:C; [|apply nth_error_None in C; lia]. destruct (nth_error_split _ _ C) as (l1 & l2 & -> & L1). rewrite app_length in K. cbn [length] in K.
  replace (before ++ (l1 ++ c :: l2) ++ 10 :: after) with (before ++ (l1 ++ [c]) ++ (l2 ++ 10 :: after)) by (rewrite <- !app_assoc; reflexivity).
  replace (Z.of_nat (length before + k)) with (Z.of_nat (length before + length (l1 ++ [c])) - 1) by (rewrite app_length; cbn; lia).
  rewrite back_over; [| |rewrite app_length; cbn [length]; lia].
  2: { intros H. apply N. rewrite in_app_iff in *. cbn in *. tauto. }
  destruct Hb as [->|[b ->]].
  - cbn [length]. destruct (_ - _)%nat eqn:Q; [rewrite app_length in Q; cbn [length] in Q; lia|]. cbn [back]. reflexivity.
  - destruct (_ - length (l1 ++ [c]))%nat eqn:Q; [rewrite !app_length in Q; cbn [length] in Q; lia|]. cbn [back].
    rewrite app_length. cbn [length]. replace (Z.of_nat (length b + 1) - 1) with (Z.of_nat (length b)) by lia. destruct (Z.geb_spec (Z.of_nat (length b)) 0); [|lia].
    rewrite <- app_assoc. cbn [app]. rewrite element_app. rewrite Z.eqb_refl. f_equal.
Qed.
Print Assumptions C52_diagnostic_partial.

(** the place is the end of the line, where the compiler stands after reading the last token of it: always the line after it is
    shown, with the mark under its first column *)
Theorem C52_line_end_refuted : forall before line next after, ~ In 10 next -> (length next + 21 <= 512)%nat ->
  (before = [] \/ exists b, before = b ++ [10]) -> ~ In 10 line ->
  on_line (before ++ line ++ 10 :: next ++ 10 :: after) (Z.of_nat (length before + length line)) line (length line) /\
  diagnostic (before ++ line ++ 10 :: next ++ 10 :: after) (Z.of_nat (length before + length line)) = Some (marked next 0).
Proof.
  intros before line next after N L Hb Nl. split; [exists before, (next ++ 10 :: after); repeat (split; [first [reflexivity|assumption]|]); lia|].
  unfold diagnostic. replace (before ++ line ++ 10 :: next ++ 10 :: after) with ((before ++ line ++ [10]) ++ next ++ 10 :: after) by (rewrite <- !app_assoc; reflexivity).
  apply after_back; [right; exists (before ++ line); rewrite app_assoc; reflexivity|exact N|lia| |rewrite !app_length; cbn [length]; lia].
  destruct (_ + 2)%nat eqn:Q; [lia|]. cbn [back]. destruct (Z.geb_spec (Z.of_nat (length before + length line)) 0); [|lia].
  replace ((before ++ line ++ [10]) ++ next ++ 10 :: after) with ((before ++ line) ++ 10 :: next ++ 10 :: after) by (rewrite <- !app_assoc; reflexivity).
  rewrite <- app_length. rewrite element_app, Z.eqb_refl. f_equal. rewrite !app_length. cbn [length]. lia.
Qed.
Print Assumptions C52_line_end_refuted.

(** a line too long for the 512 bytes: the text is written past them *)
Theorem C52_overflow_refuted : exists src pos line k, on_line src pos line k /\ (k < length line)%nat /\ length line = 600%nat /\ diagnostic src pos = None.
Proof.
  exists (repeat 120 600 ++ [10]), 5, (repeat 120 600), 5%nat. split; [|split; [rewrite repeat_length; lia|split; [apply repeat_length|vm_compute; reflexivity]]].
  exists [], []. split; [reflexivity|]. split; [left; reflexivity|]. split; [intros H; apply repeat_spec in H; discriminate|]. split; [reflexivity|rewrite repeat_length; lia].
Qed.
Print Assumptions C52_overflow_refuted.

(** "ab\ncde\nf\n" at the d: "cde\n ^ Error occurs here"; at the end of its line: "f\n^ Error occurs here" *)
Example C52_case : let src := [97; 98; 10; 99; 100; 101; 10; 102; 10] in
  on_line src 4 [99; 100; 101] 1 /\ diagnostic src 4 = Some ([99; 100; 101; 10; 32] ++ here) /\ diagnostic src 6 = Some ([102; 10] ++ here).
Proof.
  cbv zeta. split; [|split; vm_compute; reflexivity]. exists [97; 98; 10], [102; 10]. split; [reflexivity|]. split; [right; exists [97; 98]; reflexivity|].
  split; [cbn; intuition lia|]. split; [reflexivity|cbn; lia].
Qed.
