(** Proofs about __format: padding, sign and prefix. *)
From Verif.Lib Require Import CMem LibcString LibcFormat FormatSpec FormatProofs.
From Verif.Properties Require Import LibcStringProps.
Open Scope Z_scope.

(** ** Leading zeros *)
Fixpoint strip (l : list Z) : list Z :=
  match l with
  | [] => []
  | x :: r => match r with [] => [x] | _ :: _ => if x =? 48 then strip r else l end
  end.
Fixpoint stripd (l : list Z) : list Z :=
  match l with
  | [] => []
  | x :: r => match r with [] => [x] | _ :: _ => if x =? 0 then stripd r else l end
  end.

Lemma strip_cons x y l : strip (x :: y :: l) = if x =? 48 then strip (y :: l) else x :: y :: l.
Proof. reflexivity. Qed.
Lemma stripd_cons x y l : stripd (x :: y :: l) = if x =? 0 then stripd (y :: l) else x :: y :: l.
Proof. reflexivity. Qed.

Lemma dc_zero d : 0 <= d < 16 -> (digit_char d =? 48) = (d =? 0).
Proof. intros. unfold digit_char. destruct (Z.ltb_spec d 10), (Z.eqb_spec d 0); apply Z.eqb_eq || apply Z.eqb_neq; lia. Qed.

Lemma strip_map : forall ds, Forall (fun d => 0 <= d < 16) ds -> strip (map digit_char ds) = map digit_char (stripd ds).
Proof.
  induction ds as [|d ds IH]; intros F; [reflexivity|]. destruct ds as [|e ds]; [reflexivity|].
  inversion F; subst. cbn [map] in *. rewrite strip_cons, stripd_cons, dc_zero by assumption.
  destruct (d =? 0); [apply IH; assumption|reflexivity].
Qed.

Lemma stripd_numeral b : forall ds, 1 < b -> ds <> [] -> Forall (fun d => 0 <= d < b) ds ->
  numeral b (stripd ds) (value b ds).
Proof.
  intros ds Hb. induction ds as [|d ds IH]; intros N F; [congruence|]. inversion F; subst. destruct ds as [|e ds].
  - cbn [stripd]. split; [exact F|]. split; [reflexivity|]. cbn. destruct (Z.eq_dec d 0) as [->|]; [left; reflexivity|right; lia].
  - rewrite stripd_cons. destruct (Z.eqb_spec d 0) as [->|Nd].
    + replace (value b (0 :: e :: ds)) with (value b (e :: ds)) by reflexivity. apply IH; [discriminate|assumption].
    + split; [exact F|]. split; [reflexivity|]. right. cbn. lia.
Qed.

Lemma strip_zeros : forall k t, (t = [] -> (1 <= k)%nat) -> hd 0 t <> 48 -> strip (repeat 48 k ++ t) = match t with [] => [48] | _ => t end.
Proof.
  induction k as [|k IH]; intros t Hk Ht.
  - destruct t as [|x t]; [specialize (Hk eq_refl); lia|]. cbn [repeat app] in *. destruct t; [reflexivity|].
    rewrite strip_cons. cbn in Ht. destruct (Z.eqb_spec x 48); [contradiction|reflexivity].
  - cbn [repeat app]. destruct (repeat 48 k ++ t) as [|y l] eqn:E.
    + destruct k; [|discriminate]. destruct t; [reflexivity|discriminate].
    + rewrite strip_cons. change (48 =? 48) with true. cbv iota. rewrite <- E.
      destruct k; [|apply IH; [intros; lia|exact Ht]].
      cbn in E. subst t. cbn [repeat app]. destruct l; [reflexivity|]. cbn in Ht. rewrite strip_cons.
      destruct (Z.eqb_spec y 48); [contradiction|reflexivity].
Qed.

Lemma strip_nonempty l : l <> [] -> strip l <> [].
Proof.
  induction l as [|x l IH]; intros H; [congruence|]. destruct l as [|y l]; [discriminate|]. rewrite strip_cons.
  destruct (x =? 48); [apply IH; discriminate|discriminate].
Qed.
Lemma strip_suffix l : exists A, l = A ++ strip l.
Proof.
  induction l as [|x l IH]; [exists []; reflexivity|]. destruct l as [|y l]; [exists []; reflexivity|]. rewrite strip_cons.
  destruct (x =? 48); [|exists []; reflexivity]. destruct IH as [A E]. exists (x :: A). cbn [app]. f_equal. exact E.
Qed.

Definition skip_body (sc : bool) := fun (_ : nat) pbi => (
        c <- load sc pbi ;;
        if (c =? 48) && (pbi <? INT_BUF_LEN - 1) then ret (inl (iadd pbi 1)) else ret (inr pbi))%cm.

Lemma is_byte_char x sc : is_byte x -> (char_val sc x =? 48) = (x =? 48).
Proof.
  intros H. destruct (Z.eqb_spec x 48) as [->|N].
  - rewrite char_val_ascii by lia. reflexivity.
  - apply Z.eqb_neq. intros E. apply N. apply (char_val_inj sc); auto; [unfold is_byte; lia|].
    rewrite (char_val_ascii sc 48) by lia. exact E.
Qed.

Lemma skip_loop sc p : forall l A, l <> [] -> zlen A + zlen l = 16 -> Forall is_byte l -> bytes_at p 0 (A ++ l) ->
  levals (skip_body sc) (zlen A) p (16 - zlen (strip l)) p.
Proof.
  induction l as [|x l IH]; intros A N L F B; [congruence|]. inversion F; subst.
  assert (Hl : p (zlen A) = Some x) by (apply (bytes_at_get p 0 A x l); [exact B|lia]).
  rewrite zlen_cons in L. pose proof (zlen_nonneg A).
  destruct l as [|y l].
  - apply levals_exit, evals_const. unfold skip_body, bind. rewrite (load_ok _ _ _ x Hl). change (zlen []) with 0 in L.
    unfold INT_BUF_LEN. destruct (Z.ltb_spec (zlen A) (16 - 1)); [lia|]. rewrite andb_false_r. cbn [strip].
    change (zlen [x]) with 1. replace (16 - 1) with (zlen A) by lia. reflexivity.
  - rewrite strip_cons. pose proof (zlen_nonneg l). rewrite zlen_cons in L.
    destruct (x =? 48) eqn:E.
    + eapply levals_step.
      * apply evals_const. unfold skip_body, bind. rewrite (load_ok _ _ _ x Hl), is_byte_char, E by assumption.
        unfold INT_BUF_LEN. destruct (Z.ltb_spec (zlen A) (16 - 1)); [|lia]. cbn [andb]. reflexivity.
      * rewrite iadd_1 by lia. specialize (IH (A ++ [x])). rewrite zlen_app in IH. apply IH; auto; [discriminate| |].
        -- change (zlen [x]) with 1. rewrite zlen_cons. lia.
        -- rewrite <- app_assoc. exact B.
    + apply levals_exit, evals_const. unfold skip_body, bind. rewrite (load_ok _ _ _ x Hl), is_byte_char, E by assumption.
      cbn [andb]. rewrite !zlen_cons. replace (16 - (1 + (1 + zlen l))) with (zlen A) by lia. reflexivity.
Qed.

(** ** Writing to the output buffer *)
(** [h1] is [h] after the text [o] was written at [buffer] *)
Definition wrote (h h1 : heap) (buffer : Z) (o : list Z) : Prop := heq h1 (blit h buffer o).

Lemma wrote_put h h1 buffer o c : wrote h h1 buffer o -> wrote h (upd h1 (buffer + zlen o) c) buffer (o ++ [c mod 256]).
Proof.
  intros W x. rewrite <- blit_snoc by (unfold is_byte; apply Z.mod_pos_bound; lia).
  unfold upd. rewrite W. destruct (x =? buffer + zlen o); [|reflexivity]. rewrite Z.mod_mod by lia. reflexivity.
Qed.
Lemma wrote_can h h1 buffer o n : wrote h h1 buffer o -> accessible h buffer n -> zlen o < n -> h1 (buffer + zlen o) <> None.
Proof. intros W A L. rewrite W, blit_out by lia. apply A. pose proof (zlen_nonneg o). lia. Qed.
Lemma wrote_nil h buffer : wrote h h buffer [].
Proof. intros x. symmetry. apply blit_nil. Qed.
Lemma wrote_put_byte h h1 buffer o c : is_byte c -> wrote h h1 buffer o -> wrote h (upd h1 (buffer + zlen o) c) buffer (o ++ [c]).
Proof. intros Hc W. pose proof (wrote_put h h1 buffer o c W) as W'. rewrite Z.mod_small in W' by exact Hc. exact W'. Qed.

Definition fill_body (buffer zeropad : Z) := fun (_ : nat) '(bi, width) => (
      if width =? 0 then ret (inr bi)
      else
        store (buffer + bi) (if negb (zeropad =? 0) then 48 else 32) ;;;
        ret (inl (iadd bi 1, isub width 1)))%cm.

Lemma fill_loop h buffer zeropad n : accessible h buffer n -> forall k o h1, wrote h h1 buffer o ->
  zlen o + Z.of_nat k <= n -> zlen o + Z.of_nat k < 2147483648 ->
  exists h2, levals (fill_body buffer zeropad) (zlen o, Z.of_nat k) h1 (zlen o + Z.of_nat k) h2 /\
    wrote h h2 buffer (o ++ repeat (if negb (zeropad =? 0) then 48 else 32) k).
Proof.
  intros Acc. induction k as [|k IH]; intros o h1 W L1 L2.
  - exists h1. split.
    + apply levals_exit, evals_const. cbn. rewrite Z.add_0_r. reflexivity.
    + cbn [repeat]. rewrite app_nil_r. exact W.
  - pose proof (zlen_nonneg o). set (c := if negb (zeropad =? 0) then 48 else 32) in *.
    assert (Hc : is_byte c) by (subst c; unfold is_byte; destruct (negb (zeropad =? 0)); lia).
    destruct (IH (o ++ [c]) (upd h1 (buffer + zlen o) c)) as (h2 & R & W2).
    + apply wrote_put_byte; assumption.
    + rewrite zlen_app. change (zlen [c]) with 1. lia.
    + rewrite zlen_app. change (zlen [c]) with 1. lia.
    + rewrite zlen_app in R. change (zlen [c]) with 1 in R. exists h2. split.
      * replace (zlen o + Z.of_nat (S k)) with (zlen o + 1 + Z.of_nat k) by lia. eapply levals_step; [|exact R].
        apply evals_const. unfold fill_body. destruct (Z.eqb_spec (Z.of_nat (S k)) 0); [lia|]. unfold bind.
        rewrite store_ok by (eapply wrote_can; eauto; lia). rewrite iadd_1, isub_1 by lia. fold c.
        replace (Z.of_nat (S k) - 1) with (Z.of_nat k) by lia. reflexivity.
      * rewrite <- app_assoc in W2. exact W2.
Qed.

Definition copy_body (sc : bool) (buffer : Z) (pb : heap) := fun (_ : nat) '(bi, pbi) => (
      if pbi <? INT_BUF_LEN then
        '(c, _) <- priv pb (load sc pbi) ;;
        store (buffer + bi) c ;;;
        ret (inl (iadd bi 1, iadd pbi 1))
      else ret (inr bi))%cm.

Lemma copy_loop sc h buffer p n : accessible h buffer n -> forall t A o h1, wrote h h1 buffer o ->
  zlen A + zlen t = 16 -> bytes_at p 0 (A ++ t) -> Forall is_byte t ->
  zlen o + zlen t <= n -> zlen o + zlen t < 2147483648 ->
  exists h2, levals (copy_body sc buffer p) (zlen o, zlen A) h1 (zlen o + zlen t) h2 /\ wrote h h2 buffer (o ++ t).
Proof.
  intros Acc. induction t as [|c t IH]; intros A o h1 W LA B F L1 L2.
  - exists h1. split; [|rewrite app_nil_r; exact W]. apply levals_exit, evals_const. unfold copy_body, INT_BUF_LEN.
    change (zlen []) with 0 in *. destruct (Z.ltb_spec (zlen A) 16); [lia|]. rewrite Z.add_0_r. reflexivity.
  - rewrite zlen_cons in *. pose proof (zlen_nonneg o). pose proof (zlen_nonneg t). pose proof (zlen_nonneg A). inversion F; subst.
    assert (Hl : p (zlen A) = Some c) by (apply (bytes_at_get p 0 A c t); [exact B|lia]).
    destruct (IH (A ++ [c]) (o ++ [c]) (upd h1 (buffer + zlen o) (char_val sc c))) as (h2 & R & W2).
    + pose proof (wrote_put h h1 buffer o (char_val sc c) W) as W'. rewrite char_val_mod in W' by assumption. exact W'.
    + rewrite zlen_app. change (zlen [c]) with 1. lia.
    + rewrite <- app_assoc. exact B.
    + assumption.
    + rewrite zlen_app. change (zlen [c]) with 1. lia.
    + rewrite zlen_app. change (zlen [c]) with 1. lia.
    + rewrite !zlen_app in R. change (zlen [c]) with 1 in R. exists h2. split.
      * replace (zlen o + (1 + zlen t)) with (zlen o + 1 + zlen t) by lia. eapply levals_step; [|exact R].
        apply evals_const. unfold copy_body, INT_BUF_LEN. destruct (Z.ltb_spec (zlen A) 16); [|lia]. unfold bind, priv.
        rewrite (load_ok _ _ _ c Hl). rewrite store_ok by (eapply wrote_can; eauto; lia). rewrite !iadd_1 by lia. reflexivity.
      * rewrite <- app_assoc in W2. exact W2.
Qed.

(** the end of __format: padding, then the rest of pb *)
Definition format_end (sc : bool) (buffer zeropad : Z) (F : nat) (bi pbi width : Z) (pb : heap) : M Z := (
    let width := isub width (INT_BUF_LEN - pbi) in
    let width := if width <? 0 then 0 else width in
    bi <- loop (fun '(bi, width) =>
      if width =? 0 then ret (inr bi)
      else
        store (buffer + bi) (if negb (zeropad =? 0) then 48 else 32) ;;;
        ret (inl (iadd bi 1, isub width 1))) F (bi, width) ;;
    loop (fun '(bi, pbi) =>
      if pbi <? INT_BUF_LEN then
        '(c, _) <- priv pb (load sc pbi) ;;
        store (buffer + bi) c ;;;
        ret (inl (iadd bi 1, iadd pbi 1))
      else ret (inr bi)) F (bi, pbi))%cm.

Lemma format_end_spec sc h h1 buffer zeropad o t A p width n : accessible h buffer n -> wrote h h1 buffer o ->
  zlen A + zlen t = 16 -> bytes_at p 0 (A ++ t) -> Forall is_byte t ->
  -2 <= width < 2147483648 -> zlen o <= 2 ->
  let out := o ++ repeat (if negb (zeropad =? 0) then 48 else 32) (Z.to_nat (width - zlen t)) ++ t in
  zlen out <= n -> zlen out < 2147483648 ->
  exists h2, evals (fun F => format_end sc buffer zeropad F (zlen o) (zlen A) width p) h1 (zlen out) h2 /\ wrote h h2 buffer out.
Proof.
  intros Acc W LA B F Hw Ho out L1 L2. pose proof (zlen_nonneg t). pose proof (zlen_nonneg A). pose proof (zlen_nonneg o).
  subst out. rewrite !zlen_app, zlen_repeat in L1, L2 |- *.
  destruct (fill_loop h buffer zeropad n Acc (Z.to_nat (width - zlen t)) o h1 W) as (h2 & R1 & W1); [lia|lia|].
  set (pad := repeat (if negb (zeropad =? 0) then 48 else 32) (Z.to_nat (width - zlen t))) in *.
  destruct (copy_loop sc h buffer p n Acc t A (o ++ pad) h2 W1 LA B F) as (h3 & R2 & W2).
  - rewrite zlen_app. unfold pad. rewrite zlen_repeat. lia.
  - rewrite zlen_app. unfold pad. rewrite zlen_repeat. lia.
  - exists h3. split; [|rewrite <- app_assoc in W2; exact W2]. unfold format_end.
    assert (E : (if isub width (INT_BUF_LEN - zlen A) <? 0 then 0 else isub width (INT_BUF_LEN - zlen A)) = Z.of_nat (Z.to_nat (width - zlen t))).
    { unfold INT_BUF_LEN, isub. rewrite wrap_id by (unfold is_i32; lia). destruct (Z.ltb_spec (width - (16 - zlen A)) 0); lia. }
    cbn zeta. rewrite E. eapply evals_bind.
    + apply levals_evals with (body := fill_body buffer zeropad). exact R1.
    + rewrite zlen_app in R2. unfold pad in R2. rewrite zlen_repeat in R2. fold pad in R2.
      rewrite Z.add_assoc. apply levals_evals with (body := copy_body sc buffer p). exact R2.
Qed.

(** ** __format as a whole *)
Lemma evals_priv {A} (m : nat -> M A) p a p' h : evals m p a p' -> evals (fun F => priv p (m F)) h (a, p') h.
Proof. intros [n0 H]. exists n0. intros n Hn. unfold priv. rewrite H by exact Hn. reflexivity. Qed.

Definition zero_body := fun (_ : nat) pbi => (
   if pbi <? INT_BUF_LEN then store pbi 48 ;;; ret (inl (iadd pbi 1)) else ret (inr tt))%cm.

Lemma zero_loop junk : exists p, evals (fun F => loop (zero_body F) F 0) (pb_frame junk) tt p /\ zeros16 p /\ lit_there p.
Proof.
  assert (G : forall m k p, (m + k = 16)%nat -> bytes_at p 0 (repeat 48 k) -> accessible p 0 16 -> lit_there p ->
     exists p', levals zero_body (Z.of_nat k) p tt p' /\ zeros16 p' /\ lit_there p').
  { induction m as [|m IH]; intros k p E B Acc Hl.
    - exists p. replace k with 16%nat in * by lia. split; [|split; assumption]. apply levals_exit, evals_const. reflexivity.
    - destruct (IH (S k) (upd p (Z.of_nat k) 48)) as (p' & R & Z1 & Z2).
      + lia.
      + replace (S k) with (k + 1)%nat by lia. rewrite repeat_app. apply bytes_at_app. split.
        * eapply bytes_at_ext; [|exact B]. intros i Hi. rewrite zlen_repeat in Hi. apply upd_other. lia.
        * rewrite zlen_repeat. cbn [repeat]. apply bytes_at_cons. split; [|apply bytes_at_nil]. apply upd_same.
      + intros i Hi. unfold upd. destruct (0 + i =? Z.of_nat k); [discriminate|apply Acc; lia].
      + eapply bytes_at_ext; [|exact Hl]. intros i Hi. apply upd_other. unfold LIT. lia.
      + exists p'. split; [|split; assumption]. eapply levals_step; [|exact R]. apply evals_const.
        unfold zero_body, INT_BUF_LEN. destruct (Z.ltb_spec (Z.of_nat k) 16); [|lia]. unfold bind.
        rewrite store_ok by (replace (Z.of_nat k) with (0 + Z.of_nat k) by lia; apply Acc; lia). rewrite iadd_1 by lia.
        replace (Z.of_nat k + 1) with (Z.of_nat (S k)) by lia. reflexivity. }
  destruct (G 16%nat O (pb_frame junk)) as (p & R & P).
  - reflexivity.
  - apply bytes_at_nil.
  - intros i Hi. unfold pb_frame, INT_BUF_LEN. destruct (Z.leb_spec 0 (0 + i)); [|lia]. destruct (Z.ltb_spec (0 + i) 16); [|lia]. discriminate.
  - intros i Hi. unfold pb_frame, INT_BUF_LEN, LIT. change (zlen (int_min_text ++ [0])) with 12 in Hi.
    destruct (Z.leb_spec 0 (1000 + i)); [|lia]. destruct (Z.ltb_spec (1000 + i) 16); [lia|]. cbn [andb].
    destruct (Z.leb_spec 1000 (1000 + i)); [|lia]. destruct (Z.ltb_spec (1000 + i) (1000 + 12)); [|lia]. cbn [andb].
    f_equal. f_equal. lia.
  - exists p. split; [apply levals_evals; exact R|exact P].
Qed.

Definition conv (sc : bool) (F : nat) (b v : Z) : M unit :=
  if b =? 8 then str_base8 F 0 v else if b =? 10 then str_base10 sc F 0 v else if b =? 16 then str_base16 F 0 v else fail.

Definition body_text (k : base) (v : Z) : list Z :=
  (match k with Dec => sign10 v | _ => [] end) ++ map digit_char (digits (base_num k) (magnitude k v)).

Lemma dc_byte d : 0 <= d < 16 -> is_byte (digit_char d).
Proof. intros. unfold is_byte, digit_char. destruct (Z.ltb_spec d 10); lia. Qed.
Lemma base_num_range k : 1 < base_num k <= 16. Proof. destruct k; cbn; lia. Qed.
Lemma magnitude_range k v : is_i32 v -> 0 <= magnitude k v < 4294967296.
Proof. unfold is_i32. intros. destruct k; cbn; [apply w32_range|lia|apply w32_range]. Qed.

Lemma digits_bytes k v : is_i32 v -> Forall is_byte (map digit_char (digits (base_num k) (magnitude k v))).
Proof.
  intros Hv. apply Forall_map. destruct (numeral_digits (base_num k) (magnitude k v)) as (F & _ & _).
  - apply base_num_range.
  - apply magnitude_range; exact Hv.
  - eapply Forall_impl; [|exact F]. intros d Hd. apply dc_byte. pose proof (base_num_range k). cbn in Hd. lia.
Qed.
Lemma body_text_bytes k v : is_i32 v -> Forall is_byte (body_text k v).
Proof.
  intros Hv. apply Forall_app. split; [|apply digits_bytes; exact Hv].
  destruct k; try constructor. unfold sign10. destruct (v <? 0); repeat constructor; lia.
Qed.
Lemma digits_nonempty b n : digits b n <> [].
Proof. unfold digits. cbn [digits_fuel]. destruct (n <? b); [discriminate|]. intros E. apply app_eq_nil in E. destruct E; discriminate. Qed.

Lemma conv_spec sc p v k : is_i32 v -> zeros16 p -> lit_there p ->
  exists p' A, evals (fun F => conv sc F (base_num k) v) p tt p' /\ zlen A + zlen (body_text k v) = 16 /\
    zlen (body_text k v) <= 11 /\ bytes_at p' 0 (A ++ body_text k v) /\
    exists l, l <> [] /\ zlen l = 16 /\ bytes_at p' 0 l /\ strip l = body_text k v /\ Forall is_byte l.
Proof.
  intros Hv Hz Hl.
  assert (G : forall p' l n, evals (fun F => conv sc F (base_num k) v) p tt p' -> zlen l = 16 -> bytes_at p' 0 l ->
     l = repeat 48 n ++ skipn n l -> (5 <= n)%nat -> (n < 16)%nat -> strip l = body_text k v -> Forall is_byte l ->
     exists p' A, evals (fun F => conv sc F (base_num k) v) p tt p' /\ zlen A + zlen (body_text k v) = 16 /\
       zlen (body_text k v) <= 11 /\ bytes_at p' 0 (A ++ body_text k v) /\
       exists l, l <> [] /\ zlen l = 16 /\ bytes_at p' 0 l /\ strip l = body_text k v /\ Forall is_byte l).
  { intros p' l n R L B E1 E2 E3 S F. assert (N : l <> []) by (intros ->; discriminate).
    destruct (strip_suffix l) as [A EA]. rewrite S in EA.
    exists p', A. split; [exact R|]. split; [rewrite <- zlen_app, <- EA; exact L|]. split; [|split; [rewrite <- EA; exact B|]].
    - rewrite <- S. rewrite E1. 
      assert (X : forall n r, r <> [] -> zlen (strip (repeat 48 n ++ r)) <= zlen r).
      { clear. intros n r Nr. assert (S1 : forall l, zlen (strip l) <= zlen l).
        { intros l. destruct (strip_suffix l) as [A E]. apply (f_equal zlen) in E. rewrite zlen_app in E. pose proof (zlen_nonneg A). lia. }
        induction n as [|n IH]; cbn [repeat app]; [apply S1|].
        destruct (repeat 48 n ++ r) as [|y l] eqn:E.
        - apply app_eq_nil in E. destruct E; congruence.
        - rewrite strip_cons. exact IH. }
      assert (Lr : zlen (skipn n l) = 16 - Z.of_nat n). { unfold zlen in *. rewrite skipn_length. lia. }
      assert (skipn n l <> []). { intros E0. rewrite E0 in Lr. change (zlen []) with 0 in Lr. lia. }
      specialize (X n (skipn n l) H). lia.
    - exists l. auto. }
  assert (Sk : forall n r, skipn n (repeat 48 n ++ r) = r).
  { intros n r. replace n with (List.length (repeat 48 n)) at 1 by apply repeat_length. rewrite skipn_app.
    rewrite skipn_all, Nat.sub_diag. reflexivity. }
  assert (Fz : forall n, Forall is_byte (repeat 48 n)).
  { intros n. apply Forall_forall. intros x Hx. apply repeat_spec in Hx. subst x. unfold is_byte. lia. }
  assert (U : forall kk b, 1 < b -> b ^ Z.of_nat (S kk) >= 4294967296 ->
     stripd (padded b (S kk) (w32 v)) = digits b (w32 v)).
  { intros kk b Hb Hk. apply (numeral_unique b _ _ (w32 v)); [exact Hb| |apply numeral_digits; [exact Hb|apply w32_range]].
    replace (w32 v) with (value b (padded b (S kk) (w32 v))) at 2.
    - apply stripd_numeral; [exact Hb| |apply padded_digits; exact Hb]. cbn [padded]. intros E. apply app_eq_nil in E. destruct E; discriminate.
    - rewrite padded_value by exact Hb. apply Z.mod_small. pose proof (w32_range v) as W. unfold is_u32 in W. lia. }
  assert (PB : forall b n, 1 < b <= 16 -> Forall is_byte (map digit_char (padded b n (w32 v)))).
  { intros b n Hb. apply Forall_map. eapply Forall_impl; [|apply padded_digits; lia]. intros d Hd. apply dc_byte. cbn in Hd. lia. }
  assert (ST : forall b n m, 1 < b <= 16 -> strip (repeat 48 m ++ map digit_char (padded b (S n) (w32 v))) = map digit_char (stripd (padded b (S n) (w32 v)))).
  { intros b n m Hb. rewrite <- strip_map.
    - induction m as [|m IH]; [reflexivity|]. cbn [repeat app]. destruct (repeat 48 m ++ map digit_char (padded b (S n) (w32 v))) eqn:E.
      + apply app_eq_nil in E. destruct E as [_ E]. cbn [padded] in E. rewrite map_app in E. apply app_eq_nil in E. destruct E; discriminate.
      + rewrite strip_cons. exact IH.
    - eapply Forall_impl; [|apply padded_digits; lia]. cbn. intros; lia. }
  destruct k.
  - destruct (base8_spec p v Hv Hz) as (p' & R & B). apply (fun H1 => G p' _ 5%nat R H1 B).
    + rewrite zlen_app, zlen_repeat. unfold zlen. rewrite map_length, padded_length. reflexivity.
    + rewrite Sk. reflexivity.
    + lia.
    + lia.
    + rewrite ST by lia. rewrite U; [reflexivity|lia|]. change (8 ^ Z.of_nat 11) with 8589934592. lia.
    + apply Forall_app. split; [apply Fz|apply PB; lia].
  - destruct (base10_spec sc p v Hv Hz Hl) as (p' & t & R & B & T & LT).
    apply (fun H1 => G p' _ (if v =? 0 then 15%nat else (16 - List.length t)%nat) R H1 B).
    + rewrite zlen_app, zlen_repeat. unfold zlen. lia.
    + destruct (Z.eqb_spec v 0); [subst v t; reflexivity|]. rewrite Sk. reflexivity.
    + destruct (v =? 0); lia.
    + destruct (Z.eqb_spec v 0); [lia|]. destruct t; [|cbn [List.length]; lia]. exfalso. symmetry in T. apply app_eq_nil in T. destruct T as [_ T].
      apply map_eq_nil in T. apply digits_nonempty in T. exact T.
    + rewrite strip_zeros.
      * destruct (Z.eqb_spec v 0) as [->|N]; [subst t; reflexivity|]. destruct t as [|x t]; [|exact T].
        exfalso. symmetry in T. apply app_eq_nil in T. destruct T as [_ T]. apply map_eq_nil in T. apply digits_nonempty in T. exact T.
      * intros ->. cbn. lia.
      * rewrite T. destruct (Z.eqb_spec v 0); [cbn; lia|]. unfold sign10. destruct (Z.ltb_spec v 0); [cbn; lia|].
        cbn [app]. destruct (numeral_digits 10 (Z.abs v)) as (F1 & V1 & L1); [lia|unfold is_i32 in Hv; lia|].
        destruct (digits 10 (Z.abs v)) as [|d ds] eqn:E; [cbn; lia|]. inversion F1; subst. cbn [map hd].
        destruct L1 as [L1|L1]; [inversion L1; subst; cbn in V1; lia|]. cbn in L1. unfold digit_char. destruct (Z.ltb_spec d 10); lia.
    + apply Forall_app. split; [apply Fz|]. rewrite T. destruct (v =? 0); [constructor|]. apply (body_text_bytes Dec v Hv).
  - destruct (base16_spec p v Hv Hz) as (p' & R & B). apply (fun H1 => G p' _ 8%nat R H1 B).
    + rewrite zlen_app, zlen_repeat. unfold zlen. rewrite map_length, padded_length. reflexivity.
    + rewrite Sk. reflexivity.
    + lia.
    + lia.
    + rewrite ST by lia. rewrite U; [reflexivity|lia|]. change (16 ^ Z.of_nat 8) with 4294967296. lia.
    + apply Forall_app. split; [apply Fz|apply PB; lia].
Qed.

Lemma digit_first k v : is_i32 v -> k <> Dec -> exists d r, body_text k v = digit_char d :: r /\ 0 <= d < 16 /\ (d = 0 <-> v = 0).
Proof.
  intros Hv Hk. destruct (numeral_digits (base_num k) (magnitude k v)) as (F & V & L).
  { apply base_num_range. } { apply magnitude_range; exact Hv. }
  unfold body_text. assert (E : magnitude k v = w32 v) by (destruct k; [reflexivity|congruence|reflexivity]).
  rewrite E in *. assert (W : w32 v = 0 <-> v = 0) by (unfold w32, is_i32 in *; lia).
  destruct (digits (base_num k) (w32 v)) as [|d ds] eqn:ED; [exfalso; eapply digits_nonempty; exact ED|].
  exists d, (map digit_char ds). inversion F; subst. pose proof (base_num_range k).
  split; [destruct k; [reflexivity|congruence|reflexivity]|]. split; [lia|].
  destruct L as [L|L].
  - injection L; intros; subst. rewrite <- W. rewrite <- V. cbn. split; auto.
  - cbn in L. rewrite <- W, <- V. split; [lia|]. intros V0. exfalso.
    assert (d :: ds = []); [|discriminate].
    eapply (numeral_unique_aux (base_num k) ltac:(lia) (d :: ds) 0 F V0 (or_intror L) []); auto.
Qed.

Lemma field_length zero w prefix body : zlen (field zero w prefix body) = Z.max w (zlen prefix + zlen body).
Proof.
  unfold field. pose proof (zlen_nonneg prefix). pose proof (zlen_nonneg body).
  destruct zero; rewrite !zlen_app, zlen_repeat; lia.
Qed.

Definition alt_arg (k : base) (alt : bool) : Z := match k with Dec => 0 | _ => Z.b2z alt end.

Lemma format_spec sc junk h buffer v w zero alt k n : is_i32 v -> 0 <= w < 2147483648 ->
  let out := number_text k alt zero w v in
  accessible h buffer n -> zlen out <= n ->
  exists h', evals (fun F => format sc junk F buffer v w (Z.b2z zero) (base_num k) (alt_arg k alt)) h (zlen out) h' /\
    wrote h h' buffer out.
Proof.
  intros Hv Hw out Acc L.
  destruct (zero_loop junk) as (p0 & R0 & Z0 & L0).
  destruct (conv_spec sc p0 v k Hv Z0 L0) as (p & A & R1 & LA & LB & B & l & Nl & Ll & Bl & Sl & Fl).
  assert (Rs : evals (fun F => loop (skip_body sc F) F 0) p (zlen A) p).
  { apply levals_evals. pose proof (skip_loop sc p l [] Nl) as Hs. cbn [app] in Hs. rewrite zlen_nil in Hs.
    specialize (Hs ltac:(lia) Fl Bl). rewrite Sl in Hs. replace (16 - zlen (body_text k v)) with (zlen A) in Hs by lia. exact Hs. }
  set (t := body_text k v) in *.
  assert (Ft : Forall is_byte t) by (apply body_text_bytes; exact Hv).
  assert (Nt : exists x r, t = x :: r /\ is_byte x).
  { destruct t as [|x r] eqn:E; [|exists x, r; inversion Ft; auto]. exfalso. subst t. unfold body_text in E. apply app_eq_nil in E. destruct E as [_ E].
    apply map_eq_nil in E. eapply digits_nonempty. exact E. }
  destruct Nt as (x & r & Et & Bx). 
  assert (Hx : p (zlen A) = Some x) by (rewrite Et in B; apply (bytes_at_get p 0 A x r); [exact B|lia]).
  pose proof (zlen_nonneg A) as LA0.
  assert (Lout : zlen out < 2147483648).
  { unfold out, number_text. rewrite field_length. unfold t, body_text in LB. rewrite zlen_app in LB.
    assert (zlen (prefix_of k alt v) <= 2).
    { unfold prefix_of. destruct k; [destruct (alt && negb (v =? 0))|destruct (v <? 0)|destruct (alt && negb (v =? 0))]; unfold zlen; cbn; lia. }
    pose proof (zlen_nonneg (match k with Dec => sign10 v | _ => [] end)). lia. }
  set (sel := (if base_num k =? 8 then
         if negb (alt_arg k alt =? 0) then
           if negb (w =? 0) && negb (Z.b2z zero =? 0) && negb (char_val sc x =? 48) then
             store (buffer + 0) 48 ;;; ret (1, zlen A, isub w 1, p)
           else if negb (char_val sc x =? 48) then
             '(_, pb) <- priv p (store (zlen A - 1) 48) ;;
             ret (0, zlen A - 1, w, pb)
           else ret (0, zlen A, w, p)
         else ret (0, zlen A, w, p)
       else if base_num k =? 10 then
         if negb (w =? 0) && negb (Z.b2z zero =? 0) && (char_val sc x =? 45) then
           store (buffer + 0) 45 ;;; ret (1, zlen A + 1, isub w 1, p)
         else ret (0, zlen A, w, p)
       else
         if negb (alt_arg k alt =? 0) then
           if negb (w =? 0) && negb (Z.b2z zero =? 0) && negb (char_val sc x =? 48) then
             store (buffer + 0) 48 ;;;
             store (buffer + 1) 120 ;;; ret (2, zlen A, isub w 2, p)
           else if negb (char_val sc x =? 48) then
             '(_, pb) <- priv p (store (zlen A - 1) 120) ;;
             '(_, pb) <- priv pb (store (zlen A - 2) 48) ;;
             ret (0, zlen A - 2, w, pb)
           else ret (0, zlen A, w, p)
         else ret (0, zlen A, w, p))%cm).
  assert (Frame : forall o t' A' p' w' h1,
     sel h = Some ((zlen o, zlen A', w', p'), h1) -> wrote h h1 buffer o ->
     zlen A' + zlen t' = 16 -> bytes_at p' 0 (A' ++ t') -> Forall is_byte t' -> -2 <= w' < 2147483648 -> zlen o <= 2 ->
     out = o ++ repeat (if negb (Z.b2z zero =? 0) then 48 else 32) (Z.to_nat (w' - zlen t')) ++ t' ->
     exists h', evals (fun F => format sc junk F buffer v w (Z.b2z zero) (base_num k) (alt_arg k alt)) h (zlen out) h' /\
       wrote h h' buffer out).
  { intros o t' A' p' w' h1 HS W LA' B' F' Hw' Lo Eo.
    destruct (format_end_spec sc h h1 buffer (Z.b2z zero) o t' A' p' w' n Acc W LA' B' F' Hw' Lo) as (h2 & R & W2).
    - rewrite <- Eo. exact L.
    - rewrite <- Eo. exact Lout.
    - rewrite <- Eo in R, W2. exists h2. split; [|exact W2]. unfold format.
      eapply evals_bind; [apply (evals_priv _ _ _ _ h R0)|]. cbv beta iota.
      eapply evals_bind; [apply (evals_priv _ _ _ _ h R1)|]. cbv beta iota.
      eapply evals_bind; [apply (evals_priv _ _ _ _ h Rs)|]. cbv beta iota.
      eapply evals_bind with (m := fun _ => _).
      + apply (evals_priv (fun _ => load sc (zlen A)) p (char_val sc x) p h). apply evals_const. apply load_ok. exact Hx.
      + cbv beta iota. eapply evals_bind with (m := fun _ => sel).
        * apply evals_const. exact HS.
        * cbv beta iota. exact R. }
  assert (C48 : (char_val sc x =? 48) = (x =? 48)) by (apply is_byte_char; exact Bx).
  assert (C45 : (char_val sc x =? 45) = (x =? 45)).
  { destruct (Z.eqb_spec x 45) as [E|N]; [subst x; rewrite char_val_ascii by lia; reflexivity|].
    apply Z.eqb_neq. intros E. apply N. apply (char_val_inj sc); auto; [unfold is_byte; lia|]. rewrite (char_val_ascii sc 45) by lia. exact E. }
  assert (Ez : negb (Z.b2z zero =? 0) = zero) by (destruct zero; reflexivity).
  assert (Plain : sel h = Some ((zlen [], zlen A, w, p), h) ->
     (if zero then w = 0 \/ prefix_of k alt v = [] else True) -> t = prefix_of k alt v ++ map digit_char (digits (base_num k) (magnitude k v)) ->
     exists h', evals (fun F => format sc junk F buffer v w (Z.b2z zero) (base_num k) (alt_arg k alt)) h (zlen out) h' /\
       wrote h h' buffer out).
  { intros HS Cz Ht. apply (Frame [] t A p w h HS (wrote_nil h buffer) LA B Ft ltac:(lia)); [change (zlen []) with 0; lia|].
    unfold out, number_text, field. rewrite Ez, Ht. cbn [app].
    set (pre := prefix_of k alt v) in *. set (ds := map digit_char (digits (base_num k) (magnitude k v))) in *. clearbody pre ds.
    rewrite zlen_app. pose proof (zlen_nonneg pre). pose proof (zlen_nonneg ds).
    replace (w - (zlen pre + zlen ds)) with (w - zlen pre - zlen ds) by lia.
    destruct zero; [|reflexivity]. destruct Cz as [->| ->]; [|reflexivity].
    replace (Z.to_nat (0 - zlen pre - zlen ds)) with O by lia. reflexivity. }
  destruct k.
  - (* octal *)
    destruct (digit_first Oct v Hv ltac:(discriminate)) as (d & rr & Ed & Hd & D0). fold t in Ed. rewrite Et in Ed. injection Ed; intros _ Exd.
    assert (X0 : (x =? 48) = (v =? 0)).
    { rewrite Exd, dc_zero by exact Hd. destruct (Z.eqb_spec d 0), (Z.eqb_spec v 0); auto; exfalso; tauto. }
    unfold sel in Plain, Frame. cbn [base_num] in Plain, Frame. change (8 =? 8) with true in Plain, Frame. cbv iota in Plain, Frame.
    rewrite C48, X0, Ez in Plain, Frame.
    destruct alt; cbn [alt_arg Z.b2z] in Plain, Frame.
    2: { apply Plain; [reflexivity|destruct zero; auto|reflexivity]. }
    change (negb (1 =? 0)) with true in Plain, Frame. cbv iota in Plain, Frame.
    destruct (Z.eqb_spec v 0) as [Ev|Ev].
    + apply Plain; [rewrite andb_false_r; reflexivity| |]; cbn [prefix_of]; rewrite (proj2 (Z.eqb_eq v 0) Ev); cbn.
      * destruct zero; auto.
      * reflexivity.
    + assert (Epre : prefix_of Oct true v = [48]) by (cbn; apply Z.eqb_neq in Ev; rewrite Ev; reflexivity).
      destruct (Z.eqb_spec w 0) as [Ew|Ew].
      * (* written into pb *)
        cbn [negb andb] in Frame.
        destruct A as [|a A _] using rev_ind; [change (zlen []) with 0 in LA; lia|]. rewrite zlen_app in LA, Frame, Hx, LA0. change (zlen [a]) with 1 in LA, Frame, Hx, LA0.
        rewrite <- app_assoc in B. cbn [app] in B.
        apply (Frame [] (48 :: t) A (upd p (zlen A) 48) w h).
        -- unfold bind, priv. replace (zlen A + 1 - 1) with (zlen A) by lia. rewrite store_ok; [reflexivity|].
           rewrite (bytes_at_get p 0 A a t (zlen A) B); [discriminate|lia].
        -- apply wrote_nil.
        -- rewrite zlen_cons. lia.
        -- apply (bytes_at_upd p 0 A a t 48 (zlen A) B). lia.
        -- constructor; [unfold is_byte; lia|exact Ft].
        -- lia.
        -- change (zlen []) with 0. lia.
        -- unfold out, number_text, field. rewrite Epre. subst w. rewrite (zlen_cons 48 t). change (zlen [48]) with 1.
           pose proof (zlen_nonneg t). set (ds := map digit_char (digits (base_num Oct) (magnitude Oct v))). pose proof (zlen_nonneg ds).
           replace (Z.to_nat (0 - 1 - zlen ds)) with O by lia. replace (Z.to_nat (0 - (1 + zlen t))) with O by lia. destruct zero; reflexivity.
      * destruct zero; cbn [negb andb] in Frame.
        -- apply (Frame [48] t A p (isub w 1) (upd h (buffer + 0) 48)).
           ++ unfold bind. rewrite store_ok; [reflexivity|]. apply Acc. unfold out in L.
              unfold number_text in L. rewrite field_length, Epre in L. change (zlen [48]) with 1 in L. lia.
           ++ apply (wrote_put_byte h h buffer [] 48); [unfold is_byte; lia|apply wrote_nil].
           ++ exact LA.
           ++ exact B.
           ++ exact Ft.
           ++ rewrite isub_1; lia.
           ++ change (zlen [48]) with 1. lia.
           ++ unfold out, number_text, field. rewrite Epre. rewrite isub_1 by lia. reflexivity.
        -- destruct A as [|a A _] using rev_ind; [change (zlen []) with 0 in LA; lia|]. rewrite zlen_app in LA, Frame, Hx, LA0. change (zlen [a]) with 1 in LA, Frame, Hx, LA0.
           rewrite <- app_assoc in B. cbn [app] in B.
           apply (Frame [] (48 :: t) A (upd p (zlen A) 48) w h).
           ++ unfold bind, priv. replace (zlen A + 1 - 1) with (zlen A) by lia. rewrite store_ok; [reflexivity|].
              rewrite (bytes_at_get p 0 A a t (zlen A) B); [discriminate|lia].
           ++ apply wrote_nil.
           ++ rewrite zlen_cons. lia.
           ++ apply (bytes_at_upd p 0 A a t 48 (zlen A) B). lia.
           ++ constructor; [unfold is_byte; lia|exact Ft].
           ++ lia.
           ++ change (zlen []) with 0. lia.
           ++ unfold out, number_text, field. rewrite Epre, (zlen_cons 48 t). change (zlen [48]) with 1.
              change (map digit_char (digits (base_num Oct) (magnitude Oct v))) with t.
              replace (w - (1 + zlen t)) with (w - 1 - zlen t) by lia. reflexivity.
  - (* decimal *)
    unfold sel in Plain, Frame. cbn [base_num] in Plain, Frame. change (10 =? 8) with false in Plain, Frame.
    change (10 =? 10) with true in Plain, Frame. cbv iota in Plain, Frame. rewrite C45, Ez in Plain, Frame.
    assert (Ept : t = prefix_of Dec alt v ++ map digit_char (digits (base_num Dec) (magnitude Dec v))) by reflexivity.
    destruct (Z.ltb_spec v 0) as [Ng|Ng].
    + assert (Epre : prefix_of Dec alt v = [45]) by (cbn; apply Z.ltb_lt in Ng; rewrite Ng; reflexivity).
      assert (x = 45) as Ex. { rewrite Ept, Epre in Et. cbn in Et. congruence. }
      destruct (Z.eqb_spec w 0) as [Ew|Ew]; cbn [negb andb] in Plain, Frame.
      * apply Plain; [reflexivity|destruct zero; auto|exact Ept].
      * destruct zero; cbn [andb] in Plain, Frame.
        -- rewrite (proj2 (Z.eqb_eq x 45) Ex) in Frame.
           rewrite Ept, Epre in LA, B, Et. cbn [app] in Et, B, LA.
           set (ds := map digit_char (digits (base_num Dec) (magnitude Dec v))) in *.
           apply (Frame [45] ds (A ++ [45]) p (isub w 1) (upd h (buffer + 0) 45)).
           ++ unfold bind. rewrite store_ok; [rewrite zlen_app; reflexivity|]. apply Acc. unfold out in L.
              unfold number_text in L. rewrite field_length, Epre in L. change (zlen [45]) with 1 in L. fold ds in L. pose proof (zlen_nonneg ds). lia.
           ++ apply (wrote_put_byte h h buffer [] 45); [unfold is_byte; lia|apply wrote_nil].
           ++ rewrite zlen_app, zlen_cons in *. change (zlen []) with 0 in *. lia.
           ++ rewrite <- app_assoc. exact B.
           ++ apply digits_bytes. exact Hv.
           ++ rewrite isub_1; lia.
           ++ change (zlen [45]) with 1. lia.
           ++ unfold out, number_text, field. rewrite Epre. rewrite isub_1 by lia. reflexivity.
        -- apply Plain; [reflexivity|exact I|exact Ept].
    + assert (Epre : prefix_of Dec alt v = []) by (cbn; apply Z.ltb_ge in Ng; rewrite Ng; reflexivity).
      assert (X45 : (x =? 45) = false).
      { apply Z.eqb_neq. rewrite Ept, Epre in Et. cbn [app] in Et.
        destruct (numeral_digits 10 (Z.abs v) ltac:(lia)) as (F & _ & _); [unfold is_i32 in Hv; lia|].
        cbn [base_num magnitude] in Et. destruct (digits 10 (Z.abs v)) as [|d ds]; [discriminate|]. inversion F; subst. cbn [map] in Et.
        injection Et; intros _ Exd. subst x. unfold digit_char. destruct (Z.ltb_spec d 10); lia. }
      rewrite X45, andb_false_r in Plain. apply Plain; [reflexivity|rewrite Epre; destruct zero; auto|exact Ept].
  - (* hexadecimal *)
    destruct (digit_first Hex v Hv ltac:(discriminate)) as (d & rr & Ed & Hd & D0). fold t in Ed. rewrite Et in Ed. injection Ed; intros _ Exd.
    assert (X0 : (x =? 48) = (v =? 0)).
    { rewrite Exd, dc_zero by exact Hd. destruct (Z.eqb_spec d 0), (Z.eqb_spec v 0); auto; exfalso; tauto. }
    unfold sel in Plain, Frame. cbn [base_num] in Plain, Frame. change (16 =? 8) with false in Plain, Frame.
    change (16 =? 10) with false in Plain, Frame. cbv iota in Plain, Frame.
    rewrite C48, X0, Ez in Plain, Frame.
    destruct alt; cbn [alt_arg Z.b2z] in Plain, Frame.
    2: { apply Plain; [reflexivity|destruct zero; auto|reflexivity]. }
    change (negb (1 =? 0)) with true in Plain, Frame. cbv iota in Plain, Frame.
    destruct (Z.eqb_spec v 0) as [Ev|Ev].
    + apply Plain; [rewrite andb_false_r; reflexivity| |]; cbn [prefix_of]; rewrite (proj2 (Z.eqb_eq v 0) Ev); cbn.
      * destruct zero; auto.
      * reflexivity.
    + assert (Epre : prefix_of Hex true v = [48; 120]) by (cbn; apply Z.eqb_neq in Ev; rewrite Ev; reflexivity).
      assert (Two : (if negb (w =? 0) && zero then False else True) -> exists h', evals (fun F => format sc junk F buffer v w (Z.b2z zero) (base_num Hex) 1) h (zlen out) h' /\ wrote h h' buffer out).
      { intros Cwz. destruct (negb (w =? 0) && zero) eqn:Ewz; [contradiction|]. cbn [negb andb] in Frame.
        destruct A as [|a A _] using rev_ind; [change (zlen []) with 0 in LA; lia|].
        destruct A as [|b A _] using rev_ind; [change (zlen ([] ++ [a])) with 1 in LA; lia|].
        rewrite !zlen_app in LA, Frame, Hx, LA0. change (zlen [a]) with 1 in LA, Frame, Hx, LA0. change (zlen [b]) with 1 in LA, Frame, Hx, LA0.
        rewrite <- !app_assoc in B. cbn [app] in B.
        assert (B1 := bytes_at_upd p 0 (A ++ [b]) a t 120 (zlen A + 1)). rewrite zlen_app, <- !app_assoc in B1. cbn [app] in B1.
        specialize (B1 B ltac:(change (zlen [b]) with 1; lia)).
        apply (Frame [] (48 :: 120 :: t) A (upd (upd p (zlen A + 1) 120) (zlen A) 48) w h).
        -- unfold bind, priv. replace (zlen A + 1 + 1 - 1) with (zlen A + 1) by lia. rewrite store_ok.
           ++ replace (zlen A + 1 + 1 - 2) with (zlen A) by lia. rewrite store_ok; [reflexivity|].
              rewrite (bytes_at_get _ 0 A b _ (zlen A) B1); [discriminate|lia].
           ++ pose proof (bytes_at_get p 0 (A ++ [b]) a t (zlen A + 1)) as G1. rewrite <- app_assoc in G1. rewrite G1; [discriminate|exact B|rewrite zlen_app; change (zlen [b]) with 1; lia].
        -- apply wrote_nil.
        -- rewrite !zlen_cons. lia.
        -- apply (bytes_at_upd _ 0 A b _ 48 (zlen A) B1). lia.
        -- constructor; [unfold is_byte; lia|]. constructor; [unfold is_byte; lia|exact Ft].
        -- lia.
        -- change (zlen []) with 0. lia.
        -- unfold out, number_text, field. rewrite Epre, (zlen_cons 48 (120 :: t)), (zlen_cons 120 t). change (zlen [48; 120]) with 2.
           change (map digit_char (digits (base_num Hex) (magnitude Hex v))) with t.
           replace (w - (1 + (1 + zlen t))) with (w - 2 - zlen t) by lia.
           destruct zero; [|reflexivity]. rewrite andb_true_r in Ewz. destruct (Z.eqb_spec w 0) as [->|]; [|discriminate].
           pose proof (zlen_nonneg t). replace (Z.to_nat (0 - 2 - zlen t)) with O by lia. reflexivity. }
      cbn [negb andb] in Two, Frame. rewrite andb_true_r in Frame.
      destruct (negb (w =? 0) && zero) eqn:Ewz; [|apply Two; exact I].
      apply andb_prop in Ewz. destruct Ewz as [Ew ->]. destruct (Z.eqb_spec w 0) as [|Nw]; [discriminate|].
      assert (A2 : 2 <= n). { unfold out, number_text in L. rewrite field_length, Epre in L. change (zlen [48; 120]) with 2 in L.
        pose proof (zlen_nonneg (map digit_char (digits (base_num Hex) (magnitude Hex v)))). lia. }
      apply (Frame [48; 120] t A p (isub w 2) (upd (upd h (buffer + 0) 48) (buffer + 1) 120)).
      * unfold bind. rewrite store_ok by (apply Acc; lia). rewrite store_ok; [reflexivity|].
        unfold upd. destruct (buffer + 1 =? buffer + 0); [discriminate|apply Acc; lia].
      * apply (wrote_put_byte h _ buffer [48] 120); [unfold is_byte; lia|].
        apply (wrote_put_byte h h buffer [] 48); [unfold is_byte; lia|apply wrote_nil].
      * exact LA.
      * exact B.
      * exact Ft.
      * unfold isub. rewrite wrap_id; unfold is_i32; lia.
      * change (zlen [48; 120]) with 2. lia.
      * unfold out, number_text, field. rewrite Epre. unfold isub. rewrite wrap_id by (unfold is_i32; lia). reflexivity.
Qed.
