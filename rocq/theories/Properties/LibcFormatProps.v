(** C23-C26: formatted output of the embedded libc (printf family). *)
From Verif.Lib Require Import CMem LibcString LibcFormat FormatSpec FormatProofs FormatProofs2 FormatProofs3.
From Verif.Properties Require Import LibcStringProps.
Open Scope Z_scope.

(** Specification: [FormatSpec] ([numeral], [field], [output]).  What a call finds in
    memory: the format string, readable string arguments, none of them inside the [N]
    bytes at [buffer] that the call may write. *)
Record call_ok (h : heap) (buffer N fmt : Z) (args : Z -> Z) (strs : Z -> list Z) (ds : list dir) : Prop := {
  co_dirs : Forall dir_ok ds;
  co_fmt : bytes_at h fmt (format_text ds ++ [0]);
  co_len : zlen (format_text ds) < 2147483640;
  co_acc : accessible h buffer N;
  co_apart : apart buffer N fmt (zlen (format_text ds) + 1);
  co_args : args_ok h buffer N strs args 0 ds }.

(** *** Relation between what is produced and the full output *)
Lemma cut_short room d p : zlen p <= room -> cut room d p = p.
Proof. intros H. destruct d; try reflexivity. unfold cut. apply firstn_all2. unfold zlen in H. lia. Qed.

Lemma produced_all strs args : forall ds i room, zlen (output strs args i ds) <= room -> produced strs args i room ds = output strs args i ds.
Proof.
  induction ds as [|d ds IH]; intros i room H; [reflexivity|]. cbn [produced output] in *. rewrite zlen_app in H.
  set (p := piece strs d (args i)) in *. set (i' := if takes_arg d then i + 1 else i) in *.
  pose proof (zlen_nonneg p). pose proof (zlen_nonneg (output strs args i' ds)).
  destruct (Z.leb_spec room 0).
  - assert (zlen p = 0 /\ zlen (output strs args i' ds) = 0) as [E1 E2] by lia.
    assert (Z1 : forall l : list Z, zlen l = 0 -> l = []) by (intros [|x l] E; [reflexivity|rewrite zlen_cons in E; pose proof (zlen_nonneg l); lia]).
    rewrite (Z1 _ E1), (Z1 _ E2). reflexivity.
  - rewrite cut_short by lia. f_equal. apply IH. lia.
Qed.

Lemma firstn_app_le {A} n (l r : list A) : (n <= List.length l)%nat -> firstn n (l ++ r) = firstn n l.
Proof. intros. rewrite firstn_app. replace (n - List.length l)%nat with O by lia. cbn. apply app_nil_r. Qed.

Lemma produced_prefix strs args : forall ds i room, 0 <= room ->
  firstn (Z.to_nat room) (produced strs args i room ds) = firstn (Z.to_nat room) (output strs args i ds) /\
  (room < zlen (output strs args i ds) -> room <= zlen (produced strs args i room ds)).
Proof.
  induction ds as [|d ds IH]; intros i room Hr; [split; [reflexivity|cbn; lia]|]. cbn [produced output].
  set (p := piece strs d (args i)). set (i' := if takes_arg d then i + 1 else i). pose proof (zlen_nonneg p).
  destruct (Z.leb_spec room 0) as [R|R].
  - replace room with 0 by lia. split; [reflexivity|]. intros. change (zlen []) with 0. lia.
  - destruct (Z.le_gt_cases (zlen p) room) as [L|L].
    + rewrite cut_short by exact L. destruct (IH i' (room - zlen p) ltac:(lia)) as [E1 E2]. rewrite !zlen_app. split.
      * rewrite !firstn_app. f_equal. replace (Z.to_nat room - List.length p)%nat with (Z.to_nat (room - zlen p)) by (unfold zlen; lia). exact E1.
      * intros. specialize (E2 ltac:(lia)). lia.
    + assert (Hc : firstn (Z.to_nat room) (cut room d p) = firstn (Z.to_nat room) p /\ room <= zlen (cut room d p)).
      { destruct d; cbn [cut]; try (split; [reflexivity|lia]). split.
        - rewrite firstn_firstn. f_equal. lia.
        - unfold zlen in *. rewrite firstn_length. lia. }
      destruct Hc as [Hc1 Hc2]. split.
      * rewrite !firstn_app_le by (unfold zlen in *; lia). exact Hc1.
      * intros _. rewrite zlen_app. pose proof (zlen_nonneg (produced strs args i' (room - zlen (cut room d p)) ds)). lia.
Qed.

Lemma stored_min strs args n ds : 1 <= n ->
  stored (produced strs args 0 (n - 1) ds) n = Z.min (zlen (output strs args 0 ds)) (n - 1).
Proof.
  intros Hn. unfold stored. destruct (produced_prefix strs args ds 0 (n - 1) ltac:(lia)) as [_ E].
  destruct (Z.le_gt_cases (zlen (output strs args 0 ds)) (n - 1)) as [L|L].
  - rewrite produced_all by exact L. destruct (Z.gtb_spec (n - 1) (zlen (output strs args 0 ds))); lia.
  - specialize (E L). destruct (Z.gtb_spec (n - 1) (zlen (produced strs args 0 (n - 1) ds))); lia.
Qed.

Definition numeric (d : dir) : bool := match d with Num _ _ _ _ => true | _ => false end.

Lemma produced_text_only strs args : forall ds i room, existsb numeric ds = false -> -1 <= room -> zlen (produced strs args i room ds) <= room + 1.
Proof.
  induction ds as [|d ds IH]; intros i room Hd Hr; cbn [produced]; [change (zlen []) with 0; lia|].
  cbn [existsb] in Hd. apply orb_false_iff in Hd. destruct Hd as [Hd Hds].
  destruct (Z.leb_spec room 0) as [R|R]; [change (zlen []) with 0; lia|]. rewrite zlen_app.
  set (p := cut room d (piece strs d (args i))). set (i' := if takes_arg d then i + 1 else i).
  assert (zlen p <= room + 1).
  { unfold p. destruct d; cbn [cut piece]; try (unfold zlen; cbn; lia); try discriminate. unfold zlen. rewrite firstn_length. lia. }
  specialize (IH i' (room - zlen p) Hds ltac:(lia)). lia.
Qed.

Lemma produced_bound strs args m : 1 <= m -> forall ds i room, 0 <= room ->
  (forall k alt zero w v, In (Num k alt zero w) ds -> zlen (number_text k alt zero w v) <= m) ->
  zlen (produced strs args i room ds) <= room + m.
Proof.
  intros Hm. assert (G : forall ds i room, - m <= room ->
    (forall k alt zero w v, In (Num k alt zero w) ds -> zlen (number_text k alt zero w v) <= m) ->
    zlen (produced strs args i room ds) <= Z.max 0 (room + m)).
  { induction ds as [|d ds IH]; intros i room Hr H; cbn [produced]; [change (zlen []) with 0; lia|].
    destruct (Z.leb_spec room 0) as [R|R]; [change (zlen []) with 0; lia|]. rewrite zlen_app.
    set (p := cut room d (piece strs d (args i))). set (i' := if takes_arg d then i + 1 else i).
    pose proof (zlen_nonneg p).
    assert (zlen p <= room + m).
    { unfold p. destruct d; cbn [cut piece]; try (unfold zlen; cbn; lia).
      - unfold zlen. rewrite firstn_length. lia.
      - specialize (H k alt zero w (args i) ltac:(left; reflexivity)). lia. }
    specialize (IH i' (room - zlen p) ltac:(lia)). specialize (IH ltac:(intros; apply H; right; assumption)). lia. }
  intros ds i room Hr H. specialize (G ds i room ltac:(lia) H). lia.
Qed.

(** *** C26 *)
(** Whatever the format: afterwards the buffer holds the output cut to n-1 characters and a
    terminating zero, the result is the length of that text, and outside the buffer only the
    [over] bytes after its end may have changed, [over] being less than the longest number
    printed (0 if everything fits or no number is printed: C26_fits, C26_text_only). *)
Theorem C26_snprintf_partial : forall sc junk h buffer n fmt args strs ds over,
  1 <= n < 2147483648 -> 0 <= over -> n + over < 2147483648 ->
  (forall k alt zero w v, In (Num k alt zero w) ds -> zlen (number_text k alt zero w v) <= over + 1) ->
  call_ok h buffer (n + over) fmt args strs ds ->
  let text := firstn (Z.to_nat (n - 1)) (output strs args 0 ds) in
  exists h', evals (fun F => snprintf sc junk F buffer n fmt args) h (zlen text) h' /\
    bytes_at h' buffer (text ++ [0]) /\
    forall x, x < buffer \/ buffer + n + over <= x -> h' x = h x.
Proof.
  intros sc junk h buffer n fmt args strs ds over Hn Ho Hno Hnum [Hd Hf Hl Ha Hap Harg] text.
  set (P := produced strs args 0 (n - 1) ds).
  assert (LP : zlen P <= n + over).
  { unfold P. pose proof (produced_bound strs args (over + 1) ltac:(lia) ds 0 (n - 1) ltac:(lia) Hnum). lia. }
  assert (Es : stored P n = zlen text).
  { unfold P. rewrite stored_min by lia. unfold text, zlen. rewrite firstn_length. lia. }
  assert (Lt : zlen text <= n - 1) by (unfold text, zlen; rewrite firstn_length; lia).
  pose proof (zlen_nonneg text) as Z1. pose proof (zlen_nonneg P) as Z2.
  assert (Mono : forall i ds N N', N' <= N -> args_ok h buffer N strs args i ds -> args_ok h buffer N' strs args i ds).
  { clear. intros i ds. revert i. induction ds as [|d ds IH]; intros i N N' L H; [exact I|]. cbn [args_ok] in *. destruct H as [H1 H2].
    split; [|eapply IH; eauto]. destruct d; auto. destruct H1 as [H1 H3]. split; [exact H1|]. unfold apart in *. lia. }
  destruct (format_to_buf_spec sc junk h buffer fmt args strs n ds Hn Hd Hf Hl) as (h' & R & W).
  - fold P. intros i Hi. apply Ha. rewrite Es in Hi. lia.
  - fold P. unfold apart in *. rewrite Es. lia.
  - fold P. apply (Mono 0 ds (n + over)); [rewrite Es; lia|exact Harg].
  - fold P. lia.
  - fold P in R, W. rewrite Es in R, W. exists h'. split; [exact R|]. split.
    + intros i Hi. rewrite zlen_app in Hi. change (zlen [0]) with 1 in Hi. rewrite W. unfold upd.
      destruct (Z.eqb_spec (buffer + i) (buffer + zlen text)).
      * assert (i = zlen text) by lia. subst i. rewrite app_nth2 by (unfold zlen; lia).
        replace (Z.to_nat (zlen text) - List.length text)%nat with O by (unfold zlen; lia). reflexivity.
      * rewrite app_nth1 by (unfold zlen in *; lia).
        destruct (produced_prefix strs args ds 0 (n - 1) ltac:(lia)) as [Ep _]. fold P text in Ep.
        rewrite blit_in.
        -- f_equal. rewrite <- (firstn_skipn (Z.to_nat (n - 1)) P), Ep. rewrite app_nth1; [reflexivity|]. unfold zlen in *. lia.
        -- apply (f_equal zlen) in Ep. unfold zlen in *. rewrite firstn_length in Ep. lia.
    + intros x Hx. rewrite W, upd_other, blit_out; [reflexivity|lia|lia].
Qed.
Print Assumptions C26_snprintf_partial.

(** Formats without numeric conversions: never a byte outside the n bytes of the buffer. *)
Theorem C26_text_only : forall sc junk h buffer n fmt args strs ds,
  1 <= n < 2147483648 -> existsb numeric ds = false ->
  call_ok h buffer n fmt args strs ds ->
  let text := firstn (Z.to_nat (n - 1)) (output strs args 0 ds) in
  exists h', evals (fun F => snprintf sc junk F buffer n fmt args) h (zlen text) h' /\
    bytes_at h' buffer (text ++ [0]) /\
    forall x, x < buffer \/ buffer + n <= x -> h' x = h x.
Proof.
  intros sc junk h buffer n fmt args strs ds Hn Hnum Hc text.
  destruct (C26_snprintf_partial sc junk h buffer n fmt args strs ds 0 Hn ltac:(lia) ltac:(lia)) as (h' & R & B & O).
  - intros k alt zero w v Hin. exfalso. apply Bool.not_true_iff_false in Hnum. apply Hnum. apply existsb_exists.
    exists (Num k alt zero w). split; [exact Hin|reflexivity].
  - rewrite Z.add_0_r. exact Hc.
  - exists h'. split; [exact R|]. split; [exact B|]. rewrite Z.add_0_r in O. exact O.
Qed.
Print Assumptions C26_text_only.

(** Output that fits is stored completely; nothing outside the text and its terminator
    changes.  This is also sprintf (with n = INT_MAX). *)
Theorem C26_fits : forall sc junk h buffer n fmt args strs ds,
  1 <= n < 2147483648 ->
  let text := output strs args 0 ds in
  zlen text < n -> call_ok h buffer (zlen text + 1) fmt args strs ds ->
  exists h', evals (fun F => snprintf sc junk F buffer n fmt args) h (zlen text) h' /\
    heq h' (blit h buffer (text ++ [0])).
Proof.
  intros sc junk h buffer n fmt args strs ds Hn text Lt [Hd Hf Hl Ha Hap Harg].
  assert (EP : produced strs args 0 (n - 1) ds = text) by (apply produced_all; fold text; lia).
  assert (Es : stored text n = zlen text).
  { rewrite <- EP at 1. rewrite stored_min by lia. fold text. lia. }
  destruct (format_to_buf_spec sc junk h buffer fmt args strs n ds Hn Hd Hf Hl) as (h' & R & W); rewrite ?EP, ?Es in *.
  - replace (Z.max (zlen text) (zlen text + 1)) with (zlen text + 1) by lia. exact Ha.
  - replace (Z.max (zlen text) (zlen text + 1)) with (zlen text + 1) by lia. exact Hap.
  - replace (Z.max (zlen text) (zlen text + 1)) with (zlen text + 1) by lia. exact Harg.
  - lia.
  - exists h'. split; [exact R|]. intros x. rewrite W. apply blit_snoc. unfold is_byte. lia.
Qed.
Print Assumptions C26_fits.

Theorem C26_zero_size : forall sc junk h buffer fmt args, evals (fun F => snprintf sc junk F buffer 0 fmt args) h 0 h.
Proof. intros. apply evals_ret. Qed.
Print Assumptions C26_zero_size.

(** *** C23, C24, C25: a single conversion, printed with sprintf *)
Definition one (v : Z) : Z -> Z := fun _ => v.
Definition no_strings : Z -> list Z := fun _ => [].

Lemma one_conversion sc junk h buffer fmt v k alt zero w : is_i32 v -> 0 <= w < 2147483647 ->
  let text := number_text k alt zero w v in
  bytes_at h fmt (dir_text (Num k alt zero w) ++ [0]) ->
  accessible h buffer (zlen text + 1) -> apart buffer (zlen text + 1) fmt (zlen (dir_text (Num k alt zero w)) + 1) ->
  exists h', evals (fun F => sprintf sc junk F buffer fmt (one v)) h (zlen text) h' /\ heq h' (blit h buffer (text ++ [0])).
Proof.
  intros Hv Hw text Bf Acc Ap.
  assert (Et : output no_strings (one v) 0 [Num k alt zero w] = text) by (cbn; rewrite app_nil_r; reflexivity).
  assert (Ef : format_text [Num k alt zero w] = dir_text (Num k alt zero w)) by (unfold format_text; cbn [map concat]; apply app_nil_r).
  assert (Ld : forall b n, 1 < b -> 0 <= n < 4294967296 -> zlen (digits b n) <= 33).
  { clear. intros b n _ _. unfold digits. assert (G : forall k n, zlen (digits_fuel k b n) <= Z.of_nat k + 1).
    { clear n. induction k as [|k IH]; intros n; cbn [digits_fuel]; [unfold zlen; cbn; lia|].
      destruct (n <? b); [unfold zlen; cbn; lia|]. rewrite zlen_app. specialize (IH (n / b)). change (zlen [n mod b]) with 1. lia. }
    specialize (G 32%nat n). lia. }
  assert (Lb : zlen (map digit_char (digits (base_num k) (magnitude k v))) <= 33).
  { unfold zlen. rewrite map_length. apply Ld; [apply base_num_range|apply magnitude_range; exact Hv]. }
  assert (Lp : zlen (prefix_of k alt v) <= 2).
  { unfold prefix_of. destruct k; [destruct (alt && negb (v =? 0))|destruct (v <? 0)|destruct (alt && negb (v =? 0))]; unfold zlen; cbn; lia. }
  destruct (C26_fits sc junk h buffer INT_MAX fmt (one v) no_strings [Num k alt zero w]) as (h' & R & W).
  - unfold INT_MAX. lia.
  - rewrite Et. unfold text, number_text, INT_MAX. rewrite field_length. lia.
  - rewrite Et. constructor; rewrite ?Ef; auto.
    + constructor; [cbn; lia|constructor].
    + rewrite num_text_header. rewrite zlen_cons, zlen_app. unfold header. rewrite !zlen_app.
      assert (zlen (if w =? 0 then [] else map digit_char (digits 10 w)) <= 33).
      { destruct (w =? 0); [change (zlen []) with 0; lia|]. unfold zlen. rewrite map_length. apply (Ld 10 w); lia. }
      assert (zlen (if zero then [48] else []) <= 1) by (destruct zero; unfold zlen; cbn; lia).
      assert (zlen (if alt then [35] else []) <= 1) by (destruct alt; unfold zlen; cbn; lia).
      change (zlen [match k with Oct => 111 | Dec => 100 | Hex => 120 end]) with 1. lia.
    + cbn. auto.
  - rewrite Et in R, W. exists h'. split; assumption.
Qed.

(** sprintf(buffer, "%d", v) *)
Theorem C23_decimal : forall sc junk h buffer fmt v, is_i32 v ->
  bytes_at h fmt [37; 100; 0] -> accessible h buffer 12 -> apart buffer 12 fmt 3 ->
  exists ds h', numeral 10 ds (Z.abs v) /\
    let text := (if v <? 0 then [45] else []) ++ map digit_char ds in
    evals (fun F => sprintf sc junk F buffer fmt (one v)) h (zlen text) h' /\ heq h' (blit h buffer (text ++ [0])).
Proof.
  intros sc junk h buffer fmt v Hv Bf Acc Ap.
  assert (Et : number_text Dec false false 0 v = (if v <? 0 then [45] else []) ++ map digit_char (digits 10 (Z.abs v))).
  { unfold number_text, field. set (b := map digit_char _). cbn [prefix_of].
    pose proof (zlen_nonneg (if v <? 0 then [45] else [])). pose proof (zlen_nonneg b).
    replace (Z.to_nat (0 - zlen (if v <? 0 then [45] else []) - zlen b)) with O by lia. reflexivity. }
  assert (Lt : zlen (number_text Dec false false 0 v) <= 11).
  { unfold number_text. rewrite field_length. cbn [prefix_of magnitude base_num].
    destruct (zero_loop junk) as (p0 & _ & Z0 & L0).
    destruct (conv_spec sc p0 v Dec Hv Z0 L0) as (p & A & _ & _ & LB & _). unfold body_text in LB. rewrite zlen_app in LB.
    cbn [magnitude base_num] in LB. unfold sign10 in LB. lia. }
  destruct (one_conversion sc junk h buffer fmt v Dec false false 0 Hv ltac:(lia)) as (h' & R & W).
  - exact Bf.
  - intros i Hi. apply Acc. lia.
  - unfold apart in *. change (zlen (dir_text (Num Dec false false 0)) + 1) with 3. lia.
  - exists (digits 10 (Z.abs v)), h'. split; [apply numeral_digits; unfold is_i32 in Hv; lia|]. cbv zeta. rewrite <- Et. split; assumption.
Qed.
Print Assumptions C23_decimal.

(** sprintf(buffer, "%x"/"%o"/"%#x"/"%#o", v) *)
Theorem C24_hex_octal : forall sc junk h buffer fmt v k (alt : bool), is_i32 v -> k <> Dec ->
  bytes_at h fmt (37 :: (if alt then [35] else []) ++ [match k with Oct => 111 | _ => 120 end; 0]) ->
  accessible h buffer 14 -> apart buffer 14 fmt 4 ->
  exists ds h', numeral (match k with Oct => 8 | _ => 16 end) ds (w32 v) /\
    let text := (if alt && negb (v =? 0) then match k with Oct => [48] | _ => [48; 120] end else []) ++ map digit_char ds in
    evals (fun F => sprintf sc junk F buffer fmt (one v)) h (zlen text) h' /\ heq h' (blit h buffer (text ++ [0])).
Proof.
  intros sc junk h buffer fmt v k alt Hv Hk Bf Acc Ap.
  assert (Et : number_text k alt false 0 v = prefix_of k alt v ++ map digit_char (digits (base_num k) (magnitude k v))).
  { unfold number_text, field. set (b := map digit_char _). pose proof (zlen_nonneg (prefix_of k alt v)). pose proof (zlen_nonneg b).
    replace (Z.to_nat (0 - zlen (prefix_of k alt v) - zlen b)) with O by lia. reflexivity. }
  assert (Lt : zlen (number_text k alt false 0 v) <= 13).
  { unfold number_text. rewrite field_length. destruct (zero_loop junk) as (p0 & _ & Z0 & L0).
    destruct (conv_spec sc p0 v k Hv Z0 L0) as (p & A & _ & _ & LB & _). unfold body_text in LB. rewrite zlen_app in LB.
    pose proof (zlen_nonneg (match k with Dec => sign10 v | _ => [] end)).
    assert (zlen (prefix_of k alt v) <= 2).
    { unfold prefix_of. destruct k; [destruct (alt && negb (v =? 0))|destruct (v <? 0)|destruct (alt && negb (v =? 0))]; unfold zlen; cbn; lia. }
    lia. }
  destruct (one_conversion sc junk h buffer fmt v k alt false 0 Hv ltac:(lia)) as (h' & R & W).
  - destruct k; [|congruence|]; destruct alt; exact Bf.
  - intros i Hi. apply Acc. lia.
  - assert (zlen (dir_text (Num k alt false 0)) <= 3) by (destruct k, alt; unfold zlen; cbn; lia). unfold apart in *. lia.
  - exists (digits (base_num k) (magnitude k v)), h'.
    assert (Ek : match k with Oct => 8 | _ => 16 end = base_num k) by (destruct k; [reflexivity|congruence|reflexivity]).
    assert (Em : magnitude k v = w32 v) by (destruct k; [reflexivity|congruence|reflexivity]).
    split; [rewrite Ek, <- Em; apply numeral_digits; [apply base_num_range|apply magnitude_range; exact Hv]|]. cbv zeta.
    replace (if alt && negb (v =? 0) then match k with Oct => [48] | _ => [48; 120] end else []) with (prefix_of k alt v) by (destruct k; [reflexivity|congruence|reflexivity]).
    rewrite <- Et. split; assumption.
Qed.
Print Assumptions C24_hex_octal.

(** sprintf(buffer, "%[#][0]w{d,o,x}", v): the field is max(w, natural length) long; blanks
    precede sign/prefix and digits; zeros come between sign/prefix and digits. *)
Theorem C25_width_partial : forall sc junk h buffer fmt v k alt zero w, is_i32 v -> 0 < w < 2147483647 ->
  bytes_at h fmt (dir_text (Num k alt zero w) ++ [0]) ->
  let N := Z.max w 34 + 2 in
  accessible h buffer N -> apart buffer N fmt (zlen (dir_text (Num k alt zero w)) + 1) ->
  exists ds h' fill, numeral (base_num k) ds (magnitude k v) /\
    let pre := prefix_of k alt v in
    let body := map digit_char ds in
    let text := if zero then pre ++ repeat 48 fill ++ body else repeat 32 fill ++ pre ++ body in
    zlen text = Z.max w (zlen pre + zlen body) /\
    evals (fun F => sprintf sc junk F buffer fmt (one v)) h (zlen text) h' /\ heq h' (blit h buffer (text ++ [0])).
Proof.
  intros sc junk h buffer fmt v k alt zero w Hv Hw Bf N Acc Ap.
  set (ds := digits (base_num k) (magnitude k v)). set (pre := prefix_of k alt v). set (body := map digit_char ds).
  assert (Lt : zlen (number_text k alt zero w v) <= N - 1).
  { unfold number_text. rewrite field_length. destruct (zero_loop junk) as (p0 & _ & Z0 & L0).
    destruct (conv_spec sc p0 v k Hv Z0 L0) as (p & A & _ & _ & LB & _). unfold body_text in LB. rewrite zlen_app in LB.
    pose proof (zlen_nonneg (match k with Dec => sign10 v | _ => [] end)).
    assert (zlen (prefix_of k alt v) <= 2).
    { unfold prefix_of. destruct k; [destruct (alt && negb (v =? 0))|destruct (v <? 0)|destruct (alt && negb (v =? 0))]; unfold zlen; cbn; lia. }
    unfold N. lia. }
  destruct (one_conversion sc junk h buffer fmt v k alt zero w Hv ltac:(lia) Bf) as (h' & R & W).
  - intros i Hi. apply Acc. lia.
  - unfold apart in *. lia.
  - exists ds, h', (Z.to_nat (w - zlen pre - zlen body)). split.
    + apply numeral_digits; [apply base_num_range|apply magnitude_range; exact Hv].
    + cbv zeta. fold body.
      assert (E : (if zero then pre ++ repeat 48 (Z.to_nat (w - zlen pre - zlen body)) ++ body
                   else repeat 32 (Z.to_nat (w - zlen pre - zlen body)) ++ pre ++ body) = number_text k alt zero w v).
      { unfold number_text, field. fold pre ds body. destruct zero; reflexivity. }
      rewrite E. split; [|split; assumption]. unfold number_text. apply field_length.
Qed.
Print Assumptions C25_width_partial.

(** *** Refutations *)
Definition mem_of (objs : list (Z * list Z)) : heap := fun x =>
  fold_right (fun '(a, l) r => if (a <=? x) && (x <? a + zlen l) then Some (nth (Z.to_nat (x - a)) l 0) else r) None objs.

(** snprintf(buf, 4, "%d", 123456) writes six bytes: buf[4] and buf[5] are overwritten. *)
Theorem C26_number_overrun_refuted : exists h',
  let h := mem_of [(100, [37; 100; 0]); (200, repeat 7 10)] in
  evals (fun F => snprintf true (fun _ => 0) F 200 4 100 (one 123456)) h 3 h' /\
  map h' [200; 201; 202; 203; 204; 205; 206] = [Some 49; Some 50; Some 51; Some 0; Some 53; Some 54; Some 7].
Proof.
  cbv zeta.
  destruct (format_to_buf_spec true (fun _ => 0) (mem_of [(100, [37; 100; 0]); (200, repeat 7 10)]) 200 100 (one 123456) no_strings 4 [Num Dec false false 0]) as (h' & R & W).
  - lia.
  - constructor; [cbn; lia|constructor].
  - intros i Hi. change (zlen (format_text [Num Dec false false 0] ++ [0])) with 3 in Hi. assert (i = 0 \/ i = 1 \/ i = 2) as [->|[->| ->]] by lia; reflexivity.
  - reflexivity.
  - match goal with |- accessible _ _ ?n => replace n with 6 by (vm_compute; reflexivity) end. intros i Hi. assert (i = 0 \/ i = 1 \/ i = 2 \/ i = 3 \/ i = 4 \/ i = 5) as [->|[->|[->|[->|[->| ->]]]]] by lia; discriminate.
  - right. vm_compute. discriminate.
  - cbn. unfold is_i32, one. lia.
  - reflexivity.
  - exists h'. change (stored (produced no_strings (one 123456) 0 (4 - 1) [Num Dec false false 0]) 4) with 3 in *.
    split; [exact R|]. cbn [map]. rewrite !W. vm_compute. reflexivity.
Qed.
Print Assumptions C26_number_overrun_refuted.

(** printf formats into a 200-byte array with no size limit: in a memory where exactly that
    array is accessible, the run fails on an output of 200 characters. *)
Theorem C26_printf_buffer_refuted :
  let h := mem_of [(1000, [37; 50; 48; 48; 100; 0]); (2000, repeat 0 200)] in
  format_to_buf true (fun _ => 0) 300 2000 1000 (one 5) INT_MAX h = None.
Proof. vm_compute. reflexivity. Qed.
Print Assumptions C26_printf_buffer_refuted.

(** Field widths of %s are parsed but ignored: "%5s" prints the bare string. *)
Theorem C25_string_width_refuted :
  let h := mem_of [(1000, [37; 53; 115; 0]); (2000, repeat 0 20); (3000, [97; 0])] in
  option_map (fun r => (fst r, map (snd r) [2000; 2001])) (format_to_buf true (fun _ => 0) 50 2000 1000 (one 3000) INT_MAX h)
    = Some (1, [Some 97; Some 0]).
Proof. vm_compute. reflexivity. Qed.
Print Assumptions C25_string_width_refuted.

(** *** Concrete cases *)
(** sprintf(buf, "a=%d %05d|%#x|%8o|%s%%%c", -2147483648, -42, 255, 8, "hi", 'Z') *)
Example C26_case :
  let ds := [Lit 97; Lit 61; Num Dec false false 0; Lit 32; Num Dec false true 5; Lit 124; Num Hex true false 0; Lit 124;
             Num Oct false false 8; Lit 124; Str; Percent; Chr] in
  let args := fun i => nth (Z.to_nat i) [-2147483648; -42; 255; 8; 3000; 90] 0 in
  let h := mem_of [(1000, format_text ds ++ [0]); (2000, repeat 7 64); (3000, [104; 105; 0])] in
  option_map (fun r => (fst r, map (fun i => snd r (2000 + Z.of_nat i)) (seq 0 44)))
     (format_to_buf false (fun _ => 9) 100 2000 1000 args INT_MAX h) =
  Some (38, map Some ([97; 61; 45; 50; 49; 52; 55; 52; 56; 51; 54; 52; 56; 32; 45; 48; 48; 52; 50; 124; 48; 120; 102; 102; 124;
        32; 32; 32; 32; 32; 32; 49; 48; 124; 104; 105; 37; 90; 0; 7; 7; 7; 7; 7])).
Proof. vm_compute. reflexivity. Qed.
