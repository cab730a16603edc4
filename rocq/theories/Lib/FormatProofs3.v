(** Proofs about __format_to_buf. *)
From Verif.Lib Require Import CMem LibcString LibcFormat FormatSpec FormatProofs FormatProofs2.
From Verif.Properties Require Import LibcStringProps.
Open Scope Z_scope.

(** What is written before the loop stops: a directive is started while there is room for
    one more character; a string is cut, everything else is written in full. *)
Definition cut (room : Z) (d : dir) (p : list Z) : list Z :=
  match d with Str => firstn (Z.to_nat (room + 1)) p | _ => p end.
Fixpoint produced (strs : Z -> list Z) (args : Z -> Z) (i room : Z) (ds : list dir) : list Z :=
  match ds with
  | [] => []
  | d :: r =>
      if room <=? 0 then []
      else let o := cut room d (piece strs d (args i)) in
           o ++ produced strs args (if takes_arg d then i + 1 else i) (room - zlen o) r
  end.

(** the arguments: ints for numbers, readable strings away from the output for %s *)
Fixpoint args_ok (h : heap) (buffer n : Z) (strs : Z -> list Z) (args : Z -> Z) (i : Z) (ds : list dir) : Prop :=
  match ds with
  | [] => True
  | d :: r =>
      match d with
      | Str => cstring h (args i) (strs (args i)) /\ apart buffer n (args i) (zlen (strs (args i)) + 1)
      | Num _ _ _ _ => is_i32 (args i)
      | _ => True
      end /\ args_ok h buffer n strs args (if takes_arg d then i + 1 else i) r
  end.

(** ** Reading the width *)
Definition width_body (sc : bool) (fmt : Z) := fun (_ : nat) '(w, si) => (
        c <- load sc (fmt + si) ;;
        if (c >=? 48) && (c <=? 57) then ret (inl (iadd (imul w 10) (isub c 48), iadd si 1))
        else ret (inr (w, si)))%cm.

Definition digit_range (c : Z) : bool := (c >=? 48) && (c <=? 57).

Lemma width_loop sc h fmt c : 0 <= c < 128 -> digit_range c = false -> forall ds pre post w,
  Forall (fun d => 0 <= d < 10) ds -> bytes_at h fmt (pre ++ map digit_char ds ++ c :: post) ->
  0 <= w -> w * 10 ^ zlen ds + value 10 ds < 2147483648 -> zlen pre + zlen ds < 2147483647 ->
  levals (width_body sc fmt) (w, zlen pre) h (w * 10 ^ zlen ds + value 10 ds, zlen pre + zlen ds) h.
Proof.
  intros Hc Nc. induction ds as [|d ds IH]; intros pre post w F B Hw V L.
  - change (zlen []) with 0. change (10 ^ 0) with 1. change (value 10 []) with 0. rewrite Z.mul_1_r, !Z.add_0_r.
    apply levals_exit, evals_const. unfold width_body, bind. rewrite (load_ok _ _ _ c) by (eapply cstr_mid; exact B).
    rewrite char_val_ascii by exact Hc. unfold digit_range in Nc. rewrite Nc. reflexivity.
  - inversion F; subst. cbn [map app] in B. rewrite zlen_cons in *.
    pose proof (zlen_nonneg pre). pose proof (zlen_nonneg ds).
    assert (Ev : value 10 (d :: ds) = d * 10 ^ zlen ds + value 10 ds).
    { change (d :: ds) with ([d] ++ ds). rewrite value_app. change (value 10 [d]) with (0 * 10 + d). f_equal. }
    rewrite Ev in *. replace (1 + zlen ds) with (Z.succ (zlen ds)) in * by lia. rewrite Z.pow_succ_r in * by lia.
    pose proof (value_range 10 ds ltac:(lia) H2) as Vr. pose proof (Z.pow_pos_nonneg 10 (zlen ds) ltac:(lia) ltac:(lia)) as Pp.
    set (P := 10 ^ zlen ds) in *.
    assert (Wb : w * 10 + d < 2147483648) by nia.
    eapply levals_step.
    + apply evals_const. unfold width_body, bind. rewrite (load_ok _ _ _ (digit_char d)) by (eapply cstr_mid; exact B).
      assert (Ed : digit_char d = 48 + d) by (unfold digit_char; destruct (Z.ltb_spec d 10); lia). rewrite Ed.
      rewrite char_val_ascii by lia. destruct (Z.geb_spec (48 + d) 48); [|lia]. destruct (Z.leb_spec (48 + d) 57); [|lia]. cbn [andb].
      rewrite iadd_1 by lia. replace (iadd (imul w 10) (isub (48 + d) 48)) with (w * 10 + d).
      * reflexivity.
      * unfold iadd, imul, isub. rewrite (wrap_id (w * 10)), (wrap_id (48 + d - 48)) by (unfold is_i32; lia).
        rewrite wrap_id by (unfold is_i32; lia). lia.
    + replace (w * (10 * P) + (d * P + value 10 ds)) with ((w * 10 + d) * P + value 10 ds) by lia.
      specialize (IH (pre ++ [digit_char d]) post (w * 10 + d)). rewrite zlen_app in IH. change (zlen [digit_char d]) with 1 in IH.
      replace (zlen pre + Z.succ (zlen ds)) with (zlen pre + 1 + zlen ds) by lia. apply IH; auto; try lia.
      rewrite <- app_assoc. exact B.
Qed.

Lemma read_width_spec sc h fmt pre w c post : 0 <= c < 128 -> digit_range c = false -> 0 <= w < 2147483648 ->
  let t := if w =? 0 then [] else map digit_char (digits 10 w) in
  bytes_at h fmt (pre ++ t ++ c :: post) -> zlen pre + zlen t < 2147483647 ->
  evals (fun F => read_width sc F fmt (zlen pre)) h (w, zlen pre + zlen t) h.
Proof.
  intros Hc Nc Hw t B L. subst t. unfold read_width. destruct (Z.eqb_spec w 0) as [->|N].
  - change (zlen []) with 0 in *. rewrite Z.add_0_r. cbn [app] in B. eapply evals_bind with (m := fun _ => _).
    + apply evals_const. apply (load_ok sc h _ c). eapply cstr_mid. exact B.
    + rewrite char_val_ascii by exact Hc. unfold digit_range in Nc.
      replace ((c >=? 49) && (c <=? 57)) with false; [apply evals_ret|].
      symmetry. destruct (Z.geb_spec c 48), (Z.leb_spec c 57), (Z.geb_spec c 49); cbn in *; try reflexivity; try discriminate; lia.
  - destruct (numeral_digits 10 w ltac:(lia) ltac:(lia)) as (F & V & Ld).
    destruct (digits 10 w) as [|d ds] eqn:E; [exfalso; eapply digits_nonempty; exact E|].
    inversion F; subst. cbn [map app] in B, L |- *. rewrite zlen_cons in L |- *.
    assert (Hd : 0 < d). { destruct Ld as [Ld|Ld]; [inversion Ld; subst; cbn in N; lia|exact Ld]. }
    assert (Ed : digit_char d = 48 + d) by (unfold digit_char; destruct (Z.ltb_spec d 10); lia).
    assert (zm : zlen (map digit_char ds) = zlen ds) by (unfold zlen; rewrite map_length; reflexivity). rewrite zm in *.
    pose proof (zlen_nonneg pre). pose proof (zlen_nonneg ds).
    eapply evals_bind with (m := fun _ => _).
    + apply evals_const. apply (load_ok sc h _ (digit_char d)). eapply cstr_mid. exact B.
    + rewrite Ed, char_val_ascii by lia. destruct (Z.geb_spec (48 + d) 49); [|lia]. destruct (Z.leb_spec (48 + d) 57); [|lia]. cbn [andb].
      assert (Ev : value 10 (d :: ds) = d * 10 ^ zlen ds + value 10 ds).
      { change (d :: ds) with ([d] ++ ds). rewrite value_app. change (value 10 [d]) with (0 * 10 + d). f_equal. }
      replace (isub (48 + d) 48) with d by (unfold isub; rewrite wrap_id; unfold is_i32; lia). rewrite iadd_1 by lia.
      pose proof (width_loop sc h fmt c Hc Nc ds (pre ++ [digit_char d]) post d H2) as WL.
      rewrite zlen_app in WL. change (zlen [digit_char d]) with 1 in WL. rewrite Ev.
      replace (zlen pre + (1 + zlen ds)) with (zlen pre + 1 + zlen ds) by lia.
      apply levals_evals with (body := width_body sc fmt). apply WL; try lia. rewrite <- app_assoc. exact B.
Qed.

(** ** The loop *)
Definition fmt_body (sc : bool) (junk : Z -> Z) (buffer fmt : Z) (args : Z -> Z) (size : Z) := fun (F : nat) '(si, bi, pi) => (
        c <- load sc (fmt + si) ;;
        if negb (c =? 0) && (bi <? isub size 1) then
          if negb (c =? 37) then
            store (buffer + bi) c ;;; ret (inl (iadd si 1, iadd bi 1, pi))
          else
            let v := args pi in
            let si := iadd si 1 in
            c <- load sc (fmt + si) ;;
            let pp := if c =? 35 then 1 else 0 in
            let si := if c =? 35 then iadd si 1 else si in
            c <- load sc (fmt + si) ;;
            let zp := if c =? 48 then 1 else 0 in
            let si := if c =? 48 then iadd si 1 else si in
            '(w, si) <- read_width sc F fmt si ;;
            c <- load sc (fmt + si) ;;
            if c =? 115 then      (* s *)
              l <- strlen sc F v ;;
              let l := if l <? isub size bi then l else isub size bi in
              strncpy sc F (buffer + bi) v l ;;;
              ret (inl (iadd si 1, iadd bi l, iadd pi 1))
            else if c =? 99 then  (* c *)
              store (buffer + bi) v ;;;
              ret (inl (iadd si 1, iadd bi 1, iadd pi 1))
            else if c =? 111 then (* o *)
              n <- format sc junk F (buffer + bi) v w zp 8 pp ;;
              ret (inl (iadd si 1, iadd bi n, iadd pi 1))
            else if c =? 100 then (* d *)
              n <- format sc junk F (buffer + bi) v w zp 10 0 ;;
              ret (inl (iadd si 1, iadd bi n, iadd pi 1))
            else if c =? 120 then (* x *)
              n <- format sc junk F (buffer + bi) v w zp 16 pp ;;
              ret (inl (iadd si 1, iadd bi n, iadd pi 1))
            else if c =? 37 then  (* % *)
              store (buffer + bi) 37 ;;;
              ret (inl (iadd si 1, iadd bi 1, pi))
            else ret (inl (iadd si 1, bi, iadd pi 1))
        else ret (inr bi))%cm.

(** the switch on the conversion character *)
Definition conv_switch (sc : bool) (junk : Z -> Z) (buffer : Z) (args : Z -> Z) (size bi pi : Z)
    (F : nat) (pp zp w si c : Z) : M ((Z * Z * Z) + Z) := (
            let v := args pi in
            if c =? 115 then      (* s *)
              l <- strlen sc F v ;;
              let l := if l <? isub size bi then l else isub size bi in
              strncpy sc F (buffer + bi) v l ;;;
              ret (inl (iadd si 1, iadd bi l, iadd pi 1))
            else if c =? 99 then  (* c *)
              store (buffer + bi) v ;;;
              ret (inl (iadd si 1, iadd bi 1, iadd pi 1))
            else if c =? 111 then (* o *)
              n <- format sc junk F (buffer + bi) v w zp 8 pp ;;
              ret (inl (iadd si 1, iadd bi n, iadd pi 1))
            else if c =? 100 then (* d *)
              n <- format sc junk F (buffer + bi) v w zp 10 0 ;;
              ret (inl (iadd si 1, iadd bi n, iadd pi 1))
            else if c =? 120 then (* x *)
              n <- format sc junk F (buffer + bi) v w zp 16 pp ;;
              ret (inl (iadd si 1, iadd bi n, iadd pi 1))
            else if c =? 37 then  (* % *)
              store (buffer + bi) 37 ;;;
              ret (inl (iadd si 1, iadd bi 1, pi))
            else ret (inl (iadd si 1, bi, iadd pi 1)))%cm.

(** the header of a conversion: flags, width, conversion character *)
Definition header (alt zero : bool) (w : Z) : list Z :=
  (if alt then [35] else []) ++ (if zero then [48] else []) ++ (if w =? 0 then [] else map digit_char (digits 10 w)).

Lemma header_spec {A} sc h fmt pre alt zero w c post (K : nat -> Z -> Z -> Z -> Z -> Z -> M A) r h' :
  0 <= c < 128 -> digit_range c = false -> c <> 35 -> 0 <= w < 2147483648 ->
  bytes_at h fmt (pre ++ 37 :: header alt zero w ++ c :: post) -> zlen pre + 1 + zlen (header alt zero w) < 2147483646 ->
  evals (fun F => K F (Z.b2z alt) (Z.b2z zero) w (zlen pre + 1 + zlen (header alt zero w)) c) h r h' ->
  evals (fun F => (let si := iadd (zlen pre) 1 in
            c <- load sc (fmt + si) ;;
            let pp := if c =? 35 then 1 else 0 in
            let si := if c =? 35 then iadd si 1 else si in
            c <- load sc (fmt + si) ;;
            let zp := if c =? 48 then 1 else 0 in
            let si := if c =? 48 then iadd si 1 else si in
            '(w, si) <- read_width sc F fmt si ;;
            c <- load sc (fmt + si) ;;
            K F pp zp w si c)%cm) h r h'.
Proof.
  intros Hc Nc N35 Hw B L HK. pose proof (zlen_nonneg pre) as Z0. unfold header in B, L, HK.
  rewrite !zlen_app in L. 
  set (wt := if w =? 0 then [] else map digit_char (digits 10 w)) in *.
  assert (Zw := zlen_nonneg wt).
  assert (Zz : 0 <= zlen (if zero then [48] else []) <= 1) by (destruct zero; unfold zlen; cbn; lia).
  assert (Za : 0 <= zlen (if alt then [35] else []) <= 1) by (destruct alt; unfold zlen; cbn; lia).
  cbn zeta. rewrite iadd_1 by lia.
  (* the first character after the width part or of it *)
  assert (Wfirst : exists x y, wt ++ c :: post = x :: y /\ 0 <= x < 128 /\ x <> 35 /\ x <> 48 /\ (x = c \/ digit_range x = true)).
  { subst wt. destruct (Z.eqb_spec w 0) as [->|N].
    - exists c, post. split; [reflexivity|]. split; [exact Hc|]. split; [exact N35|]. split; [|left; reflexivity].
      intros ->. unfold digit_range in Nc. discriminate.
    - destruct (numeral_digits 10 w ltac:(lia) ltac:(lia)) as (F & V & Ld).
      destruct (digits 10 w) as [|d ds] eqn:E; [exfalso; eapply digits_nonempty; exact E|]. inversion F; subst.
      assert (Hd : 0 < d). { destruct Ld as [Ld|Ld]; [inversion Ld; subst; cbn in N; lia|exact Ld]. }
      exists (digit_char d), (map digit_char ds ++ c :: post). split; [reflexivity|].
      assert (Ed : digit_char d = 48 + d) by (unfold digit_char; destruct (Z.ltb_spec d 10); lia). rewrite Ed.
      split; [lia|]. split; [lia|]. split; [lia|]. right. unfold digit_range.
      destruct (Z.geb_spec (48 + d) 48), (Z.leb_spec (48 + d) 57); try reflexivity; lia. }
  destruct Wfirst as (x & y & Ex & Hx & Nx35 & Nx48 & _).
  set (pre1 := pre ++ [37]).
  assert (B1 : bytes_at h fmt (pre1 ++ (if alt then [35] else []) ++ (if zero then [48] else []) ++ wt ++ c :: post)).
  { subst pre1. rewrite <- app_assoc. rewrite <- !app_assoc in B. exact B. }
  replace (zlen pre + 1) with (zlen pre1) in * by (subst pre1; rewrite zlen_app; reflexivity).
  pose proof (zlen_nonneg pre1) as Zp1.
  set (pre2 := pre1 ++ (if alt then [35] else [])).
  assert (B2 : bytes_at h fmt (pre2 ++ (if zero then [48] else []) ++ wt ++ c :: post)).
  { subst pre2. rewrite <- app_assoc. exact B1. }
  set (pre3 := pre2 ++ (if zero then [48] else [])).
  assert (B3 : bytes_at h fmt (pre3 ++ wt ++ c :: post)). { subst pre3. rewrite <- app_assoc. exact B2. }
  assert (L2 : zlen pre2 = zlen pre1 + zlen (if alt then [35] else [])) by (subst pre2; apply zlen_app).
  assert (L3 : zlen pre3 = zlen pre2 + zlen (if zero then [48] else [])) by (subst pre3; apply zlen_app).
  assert (Rw : evals (fun F => read_width sc F fmt (zlen pre3)) h (w, zlen pre3 + zlen wt) h).
  { apply (read_width_spec sc h fmt pre3 w c post Hc Nc Hw B3). fold wt. lia. }
  assert (Rc : evals (fun _ => load sc (fmt + (zlen pre3 + zlen wt))) h c h).
  { replace c with (char_val sc c) at 1 by (apply char_val_ascii; exact Hc). apply evals_const. apply load_ok.
    rewrite app_assoc in B3. pose proof (cstr_mid h fmt (pre3 ++ wt) c post B3) as G. rewrite zlen_app in G. exact G. }
  (* third stage *)
  assert (S3 : evals (fun F => ('(w, si) <- read_width sc F fmt (zlen pre3) ;; c <- load sc (fmt + si) ;; K F (Z.b2z alt) (Z.b2z zero) w si c)%cm) h r h').
  { eapply evals_bind; [exact Rw|]. cbv beta iota. eapply evals_bind with (m := fun _ => _); [exact Rc|].
    replace (zlen pre3 + zlen wt) with (zlen pre1 + zlen ((if alt then [35] else []) ++ (if zero then [48] else []) ++ wt)); [exact HK|].
    rewrite !zlen_app. lia. }
  (* second stage: the 0 flag *)
  assert (S2 : evals (fun F => (c <- load sc (fmt + zlen pre2) ;; let zp := if c =? 48 then 1 else 0 in
            let si := if c =? 48 then iadd (zlen pre2) 1 else zlen pre2 in
            '(w, si) <- read_width sc F fmt si ;; c <- load sc (fmt + si) ;; K F (Z.b2z alt) zp w si c)%cm) h r h').
  { destruct zero.
    - eapply evals_bind with (m := fun _ => _).
      + apply evals_const. apply (load_ok sc h _ 48). eapply cstr_mid. exact B2.
      + rewrite char_val_ascii by lia. change (48 =? 48) with true. cbv beta iota zeta. change (zlen [48]) with 1 in L3.
        rewrite iadd_1 by lia. rewrite <- L3. exact S3.
    - eapply evals_bind with (m := fun _ => _).
      + apply evals_const. apply (load_ok sc h _ x). cbn [app] in B2. rewrite Ex in B2. eapply cstr_mid. exact B2.
      + rewrite char_val_ascii by exact Hx. destruct (Z.eqb_spec x 48); [contradiction|]. cbv beta iota zeta.
        change (zlen []) with 0 in L3. rewrite Z.add_0_r in L3. rewrite <- L3. exact S3. }
  destruct alt.
  - eapply evals_bind with (m := fun _ => _).
    + apply evals_const. apply (load_ok sc h _ 35). eapply cstr_mid. exact B1.
    + rewrite char_val_ascii by lia. change (35 =? 35) with true. cbv beta iota zeta. change (zlen [35]) with 1 in L2.
      rewrite iadd_1 by lia. rewrite <- L2. exact S2.
  - change (zlen []) with 0 in L2. rewrite Z.add_0_r in L2. rewrite <- L2.
    assert (Hch : exists ch, h (fmt + zlen pre2) = Some ch /\ 0 <= ch < 128 /\ ch <> 35).
    { destruct zero.
      - exists 48. split; [eapply cstr_mid; exact B2|lia].
      - exists x. cbn [app] in B2. rewrite Ex in B2. split; [eapply cstr_mid; exact B2|]. split; assumption. }
    destruct Hch as (ch & Hch & Rch & Nch).
    eapply evals_bind with (m := fun _ => _).
    + apply evals_const. apply (load_ok sc h _ ch). exact Hch.
    + rewrite char_val_ascii by exact Rch. destruct (Z.eqb_spec ch 35); [contradiction|]. cbv beta iota zeta. exact S2.
Qed.

Lemma wrote_app h h1 h2 buffer o t : wrote h h1 buffer o -> wrote h1 h2 (buffer + zlen o) t -> wrote h h2 buffer (o ++ t).
Proof. intros W1 W2 x. rewrite W2, <- blit_blit_app. apply blit_ext. exact W1. Qed.

Lemma wrote_acc h h1 buffer o n a m : wrote h h1 buffer o -> accessible h buffer n -> zlen o <= n -> accessible h a m -> accessible h1 a m.
Proof.
  intros W A L A' i Hi. rewrite W. unfold blit.
  destruct ((buffer <=? a + i) && (a + i <? buffer + zlen o)); [discriminate|]. apply A'. exact Hi.
Qed.
Lemma wrote_bytes h h1 buffer o n a s : wrote h h1 buffer o -> zlen o <= n -> apart buffer n a (zlen s) ->
  bytes_at h a s -> bytes_at h1 a s.
Proof. intros W L Ap B. eapply bytes_at_ext; [|exact B]. intros i Hi. rewrite W. apply blit_out. unfold apart in Ap. lia. Qed.

Lemma format_text_cons d ds : format_text (d :: ds) = dir_text d ++ format_text ds.
Proof. reflexivity. Qed.

Lemma num_text_header k alt zero w : dir_text (Num k alt zero w) =
  37 :: header alt zero w ++ [match k with Oct => 111 | Dec => 100 | Hex => 120 end].
Proof. unfold dir_text, header. rewrite <- !app_assoc. reflexivity. Qed.

Lemma fmt_loop sc junk h buffer fmt args strs size N T : 1 <= size < 2147483648 ->
  accessible h buffer N -> apart buffer N fmt (zlen T + 1) -> bytes_at h fmt (T ++ [0]) -> zlen T < 2147483640 ->
  forall ds pre i o h1, T = pre ++ format_text ds -> wrote h h1 buffer o -> Forall dir_ok ds ->
  args_ok h buffer N strs args i ds -> 0 <= i <= zlen pre ->
  let P := produced strs args i (size - 1 - zlen o) ds in
  zlen (o ++ P) <= N -> zlen (o ++ P) < 2147483648 ->
  exists h2, levals (fmt_body sc junk buffer fmt args size) (zlen pre, zlen o, i) h1 (zlen (o ++ P)) h2 /\
    wrote h h2 buffer (o ++ P).
Proof.
  intros Hs Acc Ap BT LT.
  assert (C0 : char_val sc 0 = 0) by (apply char_val_0; unfold is_byte; lia).
  induction ds as [|d ds IH]; intros pre i o h1 ET W F AO Hi P LN L31.
  { subst P. cbn [produced] in *. rewrite app_nil_r in *. exists h1. split; [|exact W]. apply levals_exit. exists O. intros F0 _.
    unfold fmt_body, bind. cbn in ET. rewrite ?app_nil_r in ET. subst pre.
    assert (B1 : bytes_at h1 fmt (T ++ [0])). { eapply wrote_bytes; eauto. rewrite zlen_app. exact Ap. }
    rewrite (load_ok _ _ _ 0) by (apply cstr_end; exact B1). rewrite C0. reflexivity. }
  inversion F as [|? ? Fd Fds]; subst. rewrite format_text_cons in *.
  set (T := pre ++ dir_text d ++ format_text ds) in *.
  pose proof (zlen_nonneg o) as Zo. pose proof (zlen_nonneg pre) as Zp.
  assert (Lo : zlen o <= N). { rewrite zlen_app in LN. pose proof (zlen_nonneg P). lia. }
  assert (B1 : bytes_at h1 fmt (T ++ [0])). { eapply wrote_bytes; eauto. rewrite zlen_app. exact Ap. }
  assert (B2 : bytes_at h1 fmt (pre ++ dir_text d ++ format_text ds ++ [0])).
  { unfold T in B1. rewrite <- !app_assoc in B1. exact B1. }
  assert (LTd : zlen pre + zlen (dir_text d) <= zlen T). { unfold T. rewrite !zlen_app. pose proof (zlen_nonneg (format_text ds)). lia. }
  assert (Es1 : isub size 1 = size - 1) by (apply isub_1; lia).
  (* first character *)
  assert (Fc : exists c r, dir_text d = c :: r /\ 0 < c < 256 /\ (c = 37 <-> (forall x, d <> Lit x))).
  { destruct d as [x| | | |k alt zero w]; cbn [dir_text].
    - exists x, []. cbn in Fd. split; [reflexivity|]. split; [lia|]. split; intros X; [destruct Fd; contradiction|]. exfalso. apply (X x). reflexivity.
    - exists 37, [37]. split; [reflexivity|]. split; [lia|]. split; [intros; discriminate|reflexivity].
    - exists 37, [115]. split; [reflexivity|]. split; [lia|]. split; [intros; discriminate|reflexivity].
    - exists 37, [99]. split; [reflexivity|]. split; [lia|]. split; [intros; discriminate|reflexivity].
    - eexists 37, _. split; [reflexivity|]. split; [lia|]. split; [intros; discriminate|reflexivity]. }
  destruct Fc as (c & r & Ec & Hc & C37).
  assert (Hl : h1 (fmt + zlen pre) = Some c). { rewrite Ec in B2. eapply cstr_mid. exact B2. }
  assert (Nz : char_val sc c =? 0 = false). { apply Z.eqb_neq. rewrite char_val_0; unfold is_byte; lia. }
  subst P. cbn [produced] in *.
  destruct (Z.leb_spec (size - 1 - zlen o) 0) as [Room|Room].
  { (* no room: the loop ends *)
    rewrite app_nil_r in *. exists h1. split; [|exact W]. apply levals_exit. exists O. intros F0 _. unfold fmt_body, bind.
    rewrite (load_ok _ _ _ c Hl), Nz, Es1. destruct (Z.ltb_spec (zlen o) (size - 1)); [lia|]. reflexivity. }
  set (p := cut (size - 1 - zlen o) d (piece strs d (args i))) in *.
  set (i' := if takes_arg d then i + 1 else i) in *.
  destruct AO as [AOd AOr].
  assert (Hroom : (zlen o <? isub size 1) = true) by (rewrite Es1; apply Z.ltb_lt; lia).
  set (rest := produced strs args i' (size - 1 - zlen o - zlen p) ds) in *.
  assert (Zpp := zlen_nonneg p). assert (Zrest := zlen_nonneg rest).
  assert (Lop : zlen o + zlen p <= N) by (rewrite !zlen_app in LN; lia).
  assert (Lop31 : zlen o + zlen p < 2147483648) by (rewrite !zlen_app in L31; lia).
  assert (Acc1 : accessible h1 (buffer + zlen o) (zlen p)).
  { eapply wrote_acc; eauto. intros j Hj. rewrite <- Z.add_assoc. apply Acc. lia. }
  (* one directive, then the induction hypothesis *)
  assert (Step : forall h2, wrote h1 h2 (buffer + zlen o) p ->
      evals (fun n => fmt_body sc junk buffer fmt args size n (zlen pre, zlen o, i)) h1 (inl (zlen pre + zlen (dir_text d), zlen o + zlen p, i')) h2 ->
      exists h2, levals (fmt_body sc junk buffer fmt args size) (zlen pre, zlen o, i) h1 (zlen (o ++ p ++ rest)) h2 /\ wrote h h2 buffer (o ++ p ++ rest)).
  { intros h2 W2 R. specialize (IH (pre ++ dir_text d) i' (o ++ p) h2). rewrite !zlen_app in IH.
    destruct IH as (h3 & R3 & W3).
    - unfold T. rewrite <- app_assoc. reflexivity.
    - apply (wrote_app h h1 h2 buffer o p W W2).
    - exact Fds.
    - exact AOr.
    - unfold i'. rewrite Ec, zlen_cons. pose proof (zlen_nonneg r). destruct (takes_arg d); lia.
    - replace (size - 1 - (zlen o + zlen p)) with (size - 1 - zlen o - zlen p) by lia. fold rest. rewrite !zlen_app in LN. lia.
    - replace (size - 1 - (zlen o + zlen p)) with (size - 1 - zlen o - zlen p) by lia. fold rest. rewrite !zlen_app in L31. lia.
    - replace (size - 1 - (zlen o + zlen p)) with (size - 1 - zlen o - zlen p) in R3, W3 by lia. fold rest in R3, W3.
      exists h3. rewrite <- app_assoc in W3. split; [|exact W3]. rewrite !zlen_app. rewrite Z.add_assoc.
      eapply levals_step; [exact R|exact R3]. }
  (* storing a single byte *)
  assert (Put : forall v, p = [v mod 256] -> wrote h1 (upd h1 (buffer + zlen o) v) (buffer + zlen o) p /\ store (buffer + zlen o) v h1 = Some (tt, upd h1 (buffer + zlen o) v)).
  { intros v Ev. split.
    - rewrite Ev. pose proof (wrote_put h1 h1 (buffer + zlen o) [] v (wrote_nil h1 _)) as W2. change (zlen []) with 0 in W2. rewrite Z.add_0_r in W2. exact W2.
    - apply store_ok. specialize (Acc1 0). rewrite Z.add_0_r in Acc1. apply Acc1. rewrite Ev. change (zlen [v mod 256]) with 1. lia. }
  destruct d as [lc| | | |k alt zero w].
  - (* a plain character *)
    cbn [dir_text] in Ec. injection Ec; intros Er Elc. subst r c. cbn in Fd.
    assert (Ep : p = [char_val sc lc mod 256]) by (unfold p; cbn; rewrite char_val_mod by (unfold is_byte; lia); reflexivity).
    destruct (Put _ Ep) as [W2 Hst]. apply (Step _ W2). exists O. intros F0 _. unfold fmt_body, bind.
    rewrite (load_ok _ _ _ lc Hl), Nz, Hroom. cbn [negb andb].
    destruct (Z.eqb_spec (char_val sc lc) 37) as [E|E].
    { exfalso. apply Fd. apply (char_val_inj sc); unfold is_byte; try lia. rewrite (char_val_ascii sc 37) by lia. exact E. }
    cbn [negb]. rewrite Hst. unfold zlen in LTd |- *. cbn [dir_text List.length] in *. rewrite !iadd_1; [rewrite Ep; reflexivity| |]; unfold zlen in *; lia.
  - (* %% *)
    assert (Ep : p = [37 mod 256]) by reflexivity. destruct (Put _ Ep) as [W2 Hst].
    apply (Step _ W2). cbn [dir_text] in *. injection Ec; intros Er E37. subst r c.
    unfold fmt_body. eapply evals_bind with (m := fun _ => _); [apply evals_const, (load_ok _ _ _ 37 Hl)|].
    rewrite char_val_ascii by lia. change (negb (37 =? 0)) with true. rewrite Hroom. change (negb (37 =? 37)) with false. cbv beta iota.
    change (zlen [37; 37]) with 2 in *.
    apply (header_spec sc h1 fmt pre false false 0 37 (format_text ds ++ [0])
      (conv_switch sc junk buffer args size (zlen o) i)); try reflexivity; try lia; try exact B2.
    + change (zlen (header false false 0)) with 0. lia.
    + change (zlen (header false false 0)) with 0. unfold conv_switch. cbv zeta. change (37 =? 115) with false. cbv beta iota.
      change (37 =? 99) with false. change (37 =? 111) with false. change (37 =? 100) with false. change (37 =? 120) with false. change (37 =? 37) with true. cbv beta iota.
      apply evals_const. unfold bind. rewrite Hst. rewrite !iadd_1 by lia. rewrite Ep. change (zlen [37 mod 256]) with 1. unfold i'. cbn [takes_arg].
      replace (zlen pre + 1 + 0 + 1) with (zlen pre + 2) by lia. reflexivity.
  - (* %s *)
    cbn [dir_text] in *. injection Ec; intros Er E37. subst r c. destruct AOd as [(Ts & Bs & Ls) Aps].
    set (v := args i) in *. set (s := strs v) in *. change (zlen [37; 115]) with 2 in *.
    pose proof (zlen_nonneg s) as Zs.
    set (l := if zlen s <? isub size (zlen o) then zlen s else isub size (zlen o)).
    assert (Eso : isub size (zlen o) = size - zlen o) by (apply wrap_id; unfold is_i32; lia).
    assert (Ep : p = firstn (Z.to_nat (size - zlen o)) s).
    { unfold p. cbn [cut piece]. fold v s. f_equal. lia. }
    assert (Elp : zlen p = l).
    { rewrite Ep. unfold l. rewrite Eso. unfold zlen. rewrite firstn_length. destruct (Z.ltb_spec (Z.of_nat (List.length s)) (size - Z.of_nat (List.length o))); unfold zlen in *; lia. }
    assert (Bs1 : bytes_at h1 v (s ++ [0])). { eapply wrote_bytes; eauto. rewrite zlen_app. exact Aps. }
    assert (Cs1 : cstring h1 v s) by (split; [exact Ts|split; [exact Bs1|exact Ls]]).
    assert (Lps : zlen p <= zlen s). { rewrite Ep. unfold zlen. rewrite firstn_length. lia. }
    destruct (C22_strncpy sc h1 (buffer + zlen o) v l p) as (h2 & R2 & W2).
    + rewrite <- Elp. lia.
    + split.
      * rewrite Ep. unfold text. apply Forall_forall. intros b Hb. eapply text_in; [exact Ts|].
        rewrite <- (firstn_skipn (Z.to_nat (size - zlen o)) s). apply in_or_app. left. exact Hb.
      * right. split; [exact Elp|]. rewrite Ep. rewrite <- (firstn_skipn (Z.to_nat (size - zlen o)) s) in Bs1.
        rewrite <- app_assoc in Bs1. apply bytes_at_app in Bs1. apply Bs1.
    + rewrite <- Elp. exact Acc1.
    + rewrite <- Elp. unfold apart in Aps |- *. lia.
    + assert (W2' : wrote h1 h2 (buffer + zlen o) p).
      { unfold zero_padded in W2. rewrite Elp, Z.sub_diag in W2. cbn [Z.to_nat repeat] in W2. rewrite app_nil_r in W2. exact W2. }
      apply (Step h2 W2').
      unfold fmt_body. eapply evals_bind with (m := fun _ => _); [apply evals_const, (load_ok _ _ _ 37 Hl)|].
      rewrite char_val_ascii by lia. change (negb (37 =? 0)) with true. rewrite Hroom. change (negb (37 =? 37)) with false. cbv beta iota.
      apply (header_spec sc h1 fmt pre false false 0 115 (format_text ds ++ [0])
        (conv_switch sc junk buffer args size (zlen o) i)); try reflexivity; try lia; try exact B2.
      * change (zlen (header false false 0)) with 0. lia.
      * change (zlen (header false false 0)) with 0. unfold conv_switch. cbv zeta. change (115 =? 115) with true. cbv beta iota.
        eapply evals_bind; [apply (C22_strlen sc h1 v s Cs1)|]. cbv beta zeta. fold v l.
        eapply evals_bind; [exact R2|]. cbv beta. rewrite Elp. unfold i'. cbn [takes_arg].
        rewrite !iadd_1 by lia. unfold iadd. rewrite wrap_id by (unfold is_i32; lia).
        replace (zlen pre + 1 + 0 + 1) with (zlen pre + 2) by lia. apply evals_ret.
  - (* %c *)
    assert (Ep : p = [args i mod 256]) by reflexivity. destruct (Put _ Ep) as [W2 Hst].
    apply (Step _ W2). cbn [dir_text] in *. injection Ec; intros Er E37. subst r c.
    unfold fmt_body. eapply evals_bind with (m := fun _ => _); [apply evals_const, (load_ok _ _ _ 37 Hl)|].
    rewrite char_val_ascii by lia. change (negb (37 =? 0)) with true. rewrite Hroom. change (negb (37 =? 37)) with false. cbv beta iota.
    change (zlen [37; 99]) with 2 in *.
    apply (header_spec sc h1 fmt pre false false 0 99 (format_text ds ++ [0])
      (conv_switch sc junk buffer args size (zlen o) i)); try reflexivity; try lia; try exact B2.
    + change (zlen (header false false 0)) with 0. lia.
    + change (zlen (header false false 0)) with 0. unfold conv_switch. cbv zeta. change (99 =? 115) with false. change (99 =? 99) with true. cbv beta iota.
      apply evals_const. unfold bind. rewrite Hst. rewrite !iadd_1 by lia. rewrite Ep. change (zlen [args i mod 256]) with 1. unfold i'. cbn [takes_arg].
      replace (zlen pre + 1 + 0 + 1) with (zlen pre + 2) by lia. reflexivity.
  - (* numbers *)
    cbn in Fd. rewrite num_text_header in Ec, B2, LTd, Step.
    assert (Eh : dir_text (Num k alt zero w) = 37 :: header alt zero w ++ [match k with Oct => 111 | Dec => 100 | Hex => 120 end]) by apply num_text_header.
    set (lt := match k with Oct => 111 | Dec => 100 | Hex => 120 end) in *.
    injection Ec; intros Er E37. subst c. clear Er.
    destruct (format_spec sc junk h1 (buffer + zlen o) (args i) w zero alt k (zlen p) AOd Fd Acc1) as (h2 & R2 & W2).
    { unfold p. cbn [cut piece]. lia. }
    change (number_text k alt zero w (args i)) with p in R2, W2.
    apply (Step h2 W2).
    assert (Lh : zlen (37 :: header alt zero w ++ [lt]) = 2 + zlen (header alt zero w)).
    { rewrite zlen_cons, zlen_app. change (zlen [lt]) with 1. lia. }
    rewrite Lh in *. pose proof (zlen_nonneg (header alt zero w)) as Zh.
    cbn [app] in B2. rewrite <- app_assoc in B2. cbn [app] in B2.
    unfold fmt_body. eapply evals_bind with (m := fun _ => _); [apply evals_const, (load_ok _ _ _ 37 Hl)|].
    rewrite char_val_ascii by lia. change (negb (37 =? 0)) with true. rewrite Hroom. change (negb (37 =? 37)) with false. cbv beta iota.
    apply (header_spec sc h1 fmt pre alt zero w lt (format_text ds ++ [0])
      (conv_switch sc junk buffer args size (zlen o) i)); try (destruct k; subst lt; (reflexivity || lia || discriminate || exact B2)); try lia; try exact B2.
    unfold conv_switch. cbv zeta. unfold i'. cbn [takes_arg].
    replace (zlen pre + (2 + zlen (header alt zero w))) with (iadd (zlen pre + 1 + zlen (header alt zero w)) 1) by (rewrite iadd_1; lia).
    replace (i + 1) with (iadd i 1) by (rewrite iadd_1; lia).
    replace (zlen o + zlen p) with (iadd (zlen o) (zlen p)) by (unfold iadd; apply wrap_id; unfold is_i32; lia).
    destruct k; subst lt;
      [change (111 =? 115) with false; change (111 =? 99) with false; change (111 =? 111) with true
      |change (100 =? 115) with false; change (100 =? 99) with false; change (100 =? 111) with false; change (100 =? 100) with true
      |change (120 =? 115) with false; change (120 =? 99) with false; change (120 =? 111) with false; change (120 =? 100) with false; change (120 =? 120) with true];
      cbv beta iota; (eapply evals_bind; [exact R2|]); cbv beta; apply evals_ret.
Qed.

(** ** __format_to_buf *)
Definition stored (P : list Z) (n : Z) : Z := if n - 1 >? zlen P then zlen P else n - 1.

Theorem format_to_buf_spec sc junk h buffer fmt args strs n ds : 1 <= n < 2147483648 ->
  Forall dir_ok ds ->
  let T := format_text ds in
  let P := produced strs args 0 (n - 1) ds in
  bytes_at h fmt (T ++ [0]) -> zlen T < 2147483640 ->
  let N := Z.max (zlen P) (stored P n + 1) in
  accessible h buffer N -> apart buffer N fmt (zlen T + 1) -> args_ok h buffer N strs args 0 ds -> zlen P < 2147483648 ->
  exists h', evals (fun F => format_to_buf sc junk F buffer fmt args n) h (stored P n) h' /\
    heq h' (upd (blit h buffer P) (buffer + stored P n) 0).
Proof.
  intros Hn F T P BT LT N Acc Ap AO L31.
  destruct (fmt_loop sc junk h buffer fmt args strs n N T Hn Acc Ap BT LT ds [] 0 [] h) as (h2 & R & W); auto.
  - apply wrote_nil.
  - change (zlen []) with 0. lia.
  - change (zlen []) with 0. rewrite Z.sub_0_r. fold P. cbn [app]. lia.
  - change (zlen []) with 0. rewrite Z.sub_0_r. fold P. cbn [app]. lia.
  - change (zlen []) with 0 in R, W. rewrite Z.sub_0_r in R, W. fold P in R, W. cbn [app] in R, W.
    exists (upd h2 (buffer + stored P n) 0). split.
    + unfold format_to_buf. destruct (Z.eqb_spec n 0); [lia|].
      eapply evals_bind; [apply (levals_evals (fmt_body sc junk buffer fmt args n)); exact R|].
      cbv beta zeta. rewrite isub_1 by lia. fold (stored P n).
      apply evals_const. unfold bind. rewrite store_ok; [reflexivity|].
      rewrite W. unfold blit. destruct ((buffer <=? buffer + stored P n) && (buffer + stored P n <? buffer + zlen P)); [discriminate|].
      apply Acc. unfold stored in *. pose proof (zlen_nonneg P). destruct (Z.gtb_spec (n - 1) (zlen P)); lia.
    + intros x. unfold upd. rewrite W. reflexivity.
Qed.
