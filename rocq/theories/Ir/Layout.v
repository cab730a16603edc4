(** Where the layout pass puts every instruction: the offset of a program point
    computed directly from instruction sizes, and the proof that [code_generate]
    emits every instruction exactly there, for any back end whose size estimate
    is right for the instructions of the program. *)
From Verif.Base Require Import Int32 Mem MemProofs.
From Verif.Ir Require Import Ph2 Ph2Sem.

Fixpoint sumz (l : list Z) : Z := match l with [] => 0 | x :: r => x + sumz r end.
Lemma sumz_app a b : sumz (a ++ b) = sumz a + sumz b.
Proof. induction a; cbn; lia. Qed.

(** the words [wi] are found in the image [ws] at byte offset [o] *)
Definition placed (ws : list Z) (o : Z) (wi : list Z) : Prop :=
  exists pre post, ws = pre ++ wi ++ post /\ o = 4 * Z.of_nat (length pre).

Lemma placed_words m a ws o wi : words_at m a ws -> placed ws o wi -> words_at m (a + o) wi.
Proof.
  intros H (pre & post & -> & ->). apply words_at_app in H. destruct H as [_ H].
  apply words_at_app in H. tauto.
Qed.

Lemma placed_shift pre ws post o wi : placed ws o wi ->
  placed (pre ++ ws ++ post) (4 * Z.of_nat (length pre) + o) wi.
Proof.
  intros (a & b & -> & ->). exists (pre ++ a), (b ++ post). split.
  - rewrite <- !app_assoc. reflexivity.
  - rewrite app_length. lia.
Qed.

Lemma placed_refl ws : placed ws 0 ws.
Proof. exists [], []. rewrite app_nil_r. auto. Qed.

Lemma placed_bounds ws o wi : placed ws o wi ->
  0 <= o /\ o mod 4 = 0 /\ o + 4 * Z.of_nat (length wi) <= 4 * Z.of_nat (length ws).
Proof. intros (a & b & -> & ->). rewrite !app_length. lia. Qed.

Section Lay.
  Variable T : target.
  Variable hard : bool.
  Variable p : program.

  Definition sz (i : ph2) : Z := match t_size T hard i with Some n => n | None => 0 end.
  Definition szs (l : list ph2) : Z := sumz (map sz l).

  (** a block as the layout pass leaves it *)
  Definition adj (f : func) (b : nat) (bl : block) : list ph2 :=
    map (fl_adjust (t_detach T) (f_stack f) (option_map b_id (nth_error (f_blocks f) (S b))))
        (b_insns bl).

  Fixpoint adjs (stk : Z) (bs : list block) : list (list ph2) :=
    match bs with
    | [] => []
    | b :: r => map (fl_adjust (t_detach T) stk (option_map b_id (nth_error r 0))) (b_insns b)
                :: adjs stk r
    end.

  Definition fsize (f : func) : Z := 16 + szs (concat (adjs (f_stack f) (f_blocks f))).

  Definition init_end : Z := t_globofs T + szs (g_insns p).
  Definition func_off (f : nat) : Z :=
    init_end + 24 + sumz (map fsize (firstn f (p_funcs p))).
  Definition block_off (f : func) (b : nat) : Z :=
    16 + szs (concat (firstn b (adjs (f_stack f) (f_blocks f)))).

  (** byte offset of a program point in the code image *)
  Definition point_off (pt : point) : Z :=
    match pt with
    | PInit k => t_globofs T + szs (firstn k (g_insns p))
    | PFun f b k =>
        match nth_error (p_funcs p) f with
        | Some fn => func_off f + block_off fn b
                     + match nth_error (f_blocks fn) b with
                       | Some bl => szs (firstn k (adj fn b bl))
                       | None => 0 end
        | None => 0 end
    | PExit => 20
    end.

  Lemma szs_app a b : szs (a ++ b) = szs a + szs b.
  Proof. unfold szs. rewrite map_app. apply sumz_app. Qed.
  Lemma szs_cons i l : szs (i :: l) = sz i + szs l.
  Proof. reflexivity. Qed.

  Lemma adjs_nth stk bs : forall b,
    nth_error (adjs stk bs) b =
    option_map (fun bl => map (fl_adjust (t_detach T) stk
       (option_map b_id (nth_error bs (S b)))) (b_insns bl)) (nth_error bs b).
  Proof.
    induction bs as [|x r IH]; intros [|b]; try reflexivity. apply IH.
  Qed.

  Lemma adjs_nth_f f b bl : nth_error (f_blocks f) b = Some bl ->
    nth_error (adjs (f_stack f) (f_blocks f)) b = Some (adj f b bl).
  Proof. intros H. rewrite adjs_nth, H. reflexivity. Qed.

  Lemma adjs_length stk bs : length (adjs stk bs) = length bs.
  Proof. induction bs; cbn; auto. Qed.

  Definition sized (i : ph2) : Prop := t_size T hard i <> None.

  Lemma fl_insns_spec stk nxt is : forall off off' l,
    fl_insns T hard stk nxt is off = Some (off', l) ->
    l = map (fl_adjust (t_detach T) stk nxt) is /\ off' = off + szs l /\ Forall sized l.
  Proof.
    induction is as [|i r IH]; cbn [fl_insns map]; intros off off' l H.
    - inversion H; subst. repeat split; auto. unfold szs; cbn; lia.
    - destruct (t_size T hard _) as [n|] eqn:En; [|discriminate].
      destruct (fl_insns T hard stk nxt r _) as [[o2 l2]|] eqn:E; [|discriminate].
      inversion H; subst. destruct (IH _ _ _ E) as (-> & -> & F).
      repeat split.
      + rewrite szs_cons. unfold sz. rewrite En. lia.
      + constructor; auto. unfold sized. congruence.
  Qed.

  Lemma firstn_S_nth {A} (l : list A) : forall n x, nth_error l n = Some x ->
    firstn (S n) l = firstn n l ++ [x].
  Proof.
    induction l as [|y r IH]; intros [|n] x H; cbn in *; try discriminate.
    - inversion H; reflexivity.
    - f_equal. apply IH. exact H.
  Qed.

  (** block offsets recorded while walking one function's blocks *)
  Lemma fl_blocks_spec stk bs : forall first off ofs off' ofs' l,
    fl_blocks T hard first stk bs off ofs = Some (off', ofs', l) ->
    l = concat (adjs stk bs) /\
    off' = off + (if first then match bs with [] => 0 | _ => 16 end else 0) + szs l /\
    Forall sized l /\
    (forall id, ~ In id (map b_id bs) -> ofs' id = ofs id) /\
    (NoDup (map b_id bs) -> forall b bl, nth_error bs b = Some bl ->
       ofs' (b_id bl) =
         off + (if first then match b with O => 0 | _ => 16 end else 0)
         + szs (concat (firstn b (adjs stk bs)))).
  Proof.
    induction bs as [|b0 r IH]; cbn [fl_blocks adjs concat map]; intros first off ofs off' ofs' l H.
    - inversion H; subst. repeat split; auto.
      + unfold szs; destruct first; cbn; lia.
      + intros _ [|b] bl E; discriminate.
    - assert (match r with [] => None | b' :: _ => Some (b_id b') end
              = option_map b_id (nth_error r 0)) as En by (destruct r; reflexivity).
      rewrite En in H.
      destruct (fl_insns T hard stk _ (b_insns b0) _) as [[o2 l2]|] eqn:E1; [|discriminate].
      destruct (fl_blocks T hard false stk r o2 _) as [[[o3 ofs3] l3]|] eqn:E2; [|discriminate].
      inversion H; subst off' ofs' l. clear H.
      destruct (fl_insns_spec _ _ _ _ _ _ E1) as (El2 & Eo2 & F2).
      destruct (IH _ _ _ _ _ _ E2) as (El3 & Eo3 & F3 & Hout & Hin).
      rewrite <- El2, <- El3. repeat split.
      + rewrite szs_app, Eo3, Eo2. destruct first; lia.
      + apply Forall_app; auto.
      + intros id Hni. rewrite Hout; [|intros Hx; apply Hni; right; exact Hx].
        unfold upd. destruct (Z.eqb_spec id (b_id b0)); [|reflexivity].
        exfalso. apply Hni. left. congruence.
      + intros Hnd b bl Hb. inversion Hnd as [|? ? Hn Hr]; subst.
        destruct b as [|b]; cbn [nth_error] in Hb.
        * inversion Hb; subst bl. rewrite Hout by exact Hn.
          unfold upd. rewrite Z.eqb_refl. unfold szs; cbn. destruct first; lia.
        * rewrite (Hin Hr b bl Hb). cbn [firstn concat]. rewrite szs_app.
          destruct first; lia.
  Qed.

  Definition allids (fs : list func) : list Z := concat (map (fun f => map b_id (f_blocks f)) fs).

  Definition flat1 (f : func) : list ph2 :=
    define_ir (f_stack f) :: concat (adjs (f_stack f) (f_blocks f)).

  Lemma fl_funcs_spec fs : forall off ofs off' ofs' l,
    Forall (fun f => f_blocks f <> []) fs ->
    fl_funcs T hard fs off ofs = Some (off', ofs', l) ->
    l = concat (map flat1 fs) /\
    off' = off + sumz (map fsize fs) /\
    Forall (fun f => Forall sized (concat (adjs (f_stack f) (f_blocks f)))) fs /\
    (forall id, ~ In id (allids fs) -> ofs' id = ofs id) /\
    (NoDup (allids fs) -> forall k f b bl, nth_error fs k = Some f ->
       nth_error (f_blocks f) b = Some bl ->
       ofs' (b_id bl) = off + sumz (map fsize (firstn k fs))
                        + match b with O => 0 | _ => block_off f b end).
  Proof.
    induction fs as [|f r IH]; intros off ofs off' ofs' l Hne H; cbn [fl_funcs] in H.
    - inversion H; subst. repeat split; auto; cbn; try lia. intros _ [|k] f b bl E; discriminate.
    - destruct (fl_blocks T hard true _ _ _ _) as [[[o1 ofs1] l1]|] eqn:E1; [|discriminate].
      destruct (fl_funcs T hard r _ _) as [[[o2 ofs2] l2]|] eqn:E2; [|discriminate].
      inversion H; subst off' ofs' l. clear H. inversion Hne as [|? ? Hnf Hnr]; subst.
      destruct (fl_blocks_spec _ _ _ _ _ _ _ _ E1) as (El1 & Eo1 & F1 & Hout1 & Hin1).
      destruct (IH _ _ _ _ _ Hnr E2) as (El2 & Eo2 & F2 & Hout2 & Hin2).
      assert (o1 = off + fsize f) as Eo1'.
      { rewrite Eo1. unfold fsize. rewrite El1. destruct (f_blocks f); [congruence|lia]. }
      repeat split.
      + cbn [map concat]. unfold flat1 at 1. rewrite El1, El2. reflexivity.
      + cbn [map sumz]. lia.
      + constructor; auto. rewrite <- El1. exact F1.
      + intros id Hni. unfold allids in Hni. cbn [map concat] in Hni. rewrite in_app_iff in Hni.
        rewrite Hout2 by (unfold allids; tauto). apply Hout1. tauto.
      + unfold allids. cbn [map concat]. intros Hnd k g b bl Hk Hb.
        assert (NoDup (map b_id (f_blocks f)) /\ NoDup (allids r) /\
                forall id, In id (map b_id (f_blocks f)) -> ~ In id (allids r)) as (N1 & N2 & N3).
        { clear - Hnd. fold (allids r) in Hnd.
          induction (map b_id (f_blocks f)) as [|x y IHy]; cbn in *.
          - repeat split; auto. constructor.
          - inversion Hnd; subst. destruct (IHy H2) as (? & ? & ?).
            rewrite in_app_iff in H1. repeat split; auto.
            + constructor; auto.
            + intros id [->|Hi]; auto. }
        destruct k as [|k]; cbn [nth_error] in Hk.
        * inversion Hk; subst g. rewrite Hout2.
          -- rewrite (Hin1 N1 b bl Hb). unfold block_off. change (sumz (map fsize (firstn 0 (f :: r)))) with 0.
             destruct b; [unfold szs; cbn; lia|lia].
          -- apply N3. apply in_map. eapply nth_error_In; eauto.
        * rewrite (Hin2 N2 k g b bl Hk Hb). cbn [firstn map sumz]. lia.
  Qed.

  Lemma sizes_spec is : forall off off', sizes T hard is off = Some off' ->
    off' = off + szs is /\ Forall sized is.
  Proof.
    induction is as [|i r IH]; cbn [sizes]; intros off off' H.
    - inversion H; subst. split; auto. unfold szs; cbn; lia.
    - destruct (t_size T hard i) as [n|] eqn:E; [|discriminate].
      destruct (IH _ _ H) as (-> & F). split.
      + rewrite szs_cons. unfold sz. rewrite E. lia.
      + constructor; auto. unfold sized; congruence.
  Qed.

  (** ** emission *)
  (** the size estimate is right for instruction [i] *)
  Definition size_ok (i : ph2) : Prop :=
    forall e pos n ws, e_hard e = hard -> t_size T hard i = Some n ->
      t_emit T e pos i = Some ws -> 4 * Z.of_nat (length ws) = n.

  Lemma emit_app e is1 : forall pos is2 ws, emit_list T e pos (is1 ++ is2) = Some ws ->
    exists w1 w2, emit_list T e pos is1 = Some w1 /\
      emit_list T e (pos + 4 * Z.of_nat (length w1)) is2 = Some w2 /\ ws = w1 ++ w2.
  Proof.
    induction is1 as [|i r IH]; intros pos is2 ws H; cbn [app emit_list] in *.
    - exists [], ws. repeat split; auto. cbn [length]. rewrite Z.add_0_r. exact H.
    - destruct (t_emit T e pos i) as [wi|]; [|discriminate].
      destruct (emit_list T e _ (r ++ is2)) as [w|] eqn:E; [|discriminate].
      inversion H; subst ws. destruct (IH _ _ _ E) as (w1 & w2 & E1 & E2 & ->).
      exists (wi ++ w1), w2. rewrite E1. repeat split; auto.
      + rewrite app_length. replace (pos + 4 * Z.of_nat (length wi + length w1))
          with (pos + 4 * Z.of_nat (length wi) + 4 * Z.of_nat (length w1)) by lia. exact E2.
      + rewrite app_assoc. reflexivity.
  Qed.

  Lemma emit_size e is : forall pos ws, e_hard e = hard ->
    Forall sized is -> Forall size_ok is ->
    emit_list T e pos is = Some ws -> 4 * Z.of_nat (length ws) = szs is.
  Proof.
    induction is as [|i r IH]; intros pos ws Hh Fs Fo H; cbn [emit_list] in H.
    - inversion H; reflexivity.
    - inversion Fs as [|? ? S1 S2]; inversion Fo as [|? ? O1 O2]; subst.
      destruct (t_emit T e pos i) as [wi|] eqn:Ei; [|discriminate].
      destruct (emit_list T e _ r) as [w|] eqn:E; [|discriminate].
      inversion H; subst ws. rewrite szs_cons, app_length.
      rewrite <- (IH _ _ Hh S2 O2 E). unfold sz, sized in *.
      destruct (t_size T hard i) as [n|] eqn:En; [|congruence].
      rewrite <- (O1 e pos n wi Hh En Ei). lia.
  Qed.

  Lemma emit_nth e is : forall pos ws k i, e_hard e = hard ->
    Forall sized is -> Forall size_ok is ->
    emit_list T e pos is = Some ws -> nth_error is k = Some i ->
    exists wi, t_emit T e (pos + szs (firstn k is)) i = Some wi /\
      placed ws (szs (firstn k is)) wi /\ 4 * Z.of_nat (length wi) = sz i.
  Proof.
    intros pos ws k i Hh Fs Fo H Hk.
    rewrite <- (firstn_skipn k is) in H.
    destruct (emit_app _ _ _ _ _ H) as (w1 & w2 & E1 & E2 & ->).
    assert (Forall sized (firstn k is) /\ Forall size_ok (firstn k is)) as (F1 & F2).
    { rewrite <- (firstn_skipn k is) in Fs, Fo. apply Forall_app in Fs, Fo. tauto. }
    assert (skipn k is = i :: skipn (S k) is) as Es.
    { clear - Hk. revert k Hk. induction is as [|x r IH]; intros [|k] Hk; cbn in *; try discriminate.
      - inversion Hk; reflexivity. - apply IH; auto. }
    rewrite Es in E2. cbn [emit_list] in E2.
    pose proof (emit_size _ _ _ _ Hh F1 F2 E1) as El. rewrite El in E2.
    destruct (t_emit T e _ i) as [wi|] eqn:Ei; [|discriminate].
    destruct (emit_list T e _ (skipn (S k) is)) as [w|] eqn:E; [|discriminate].
    inversion E2; subst w2. exists wi. repeat split.
    - exists w1, w. split; auto.
    - assert (In i is) as Hin by (eapply nth_error_In; eauto).
      rewrite Forall_forall in Fs, Fo. specialize (Fs _ Hin). specialize (Fo _ Hin).
      unfold sz. destruct (t_size T hard i) as [n|] eqn:En; [|congruence].
      eapply Fo; eauto.
  Qed.

  Lemma emit_cut e is n : forall pos ws, e_hard e = hard ->
    Forall sized is -> Forall size_ok is ->
    emit_list T e pos is = Some ws -> placed ws (szs (firstn n is)) [].
  Proof.
    intros pos ws Hh Fs Fo H. rewrite <- (firstn_skipn n is) in H.
    destruct (emit_app _ _ _ _ _ H) as (w1 & w2 & E1 & E2 & ->).
    exists w1, w2. split; auto. symmetry. eapply emit_size; eauto.
    - rewrite <- (firstn_skipn n is) in Fs. apply Forall_app in Fs. tauto.
    - rewrite <- (firstn_skipn n is) in Fo. apply Forall_app in Fo. tauto.
  Qed.

  Lemma szs_firstn_concat (ls : list (list ph2)) : forall b l k, nth_error ls b = Some l ->
    (k <= length l)%nat ->
    exists n, firstn n (concat ls) = concat (firstn b ls) ++ firstn k l /\
      (forall i, nth_error l k = Some i -> nth_error (concat ls) n = Some i).
  Proof.
    induction ls as [|l0 r IH]; intros [|b] l k H Hk; cbn [nth_error concat firstn app] in *; try discriminate.
    - inversion H; subst l0. exists k. split.
      + rewrite firstn_app. replace (k - length l)%nat with O by lia.
        cbn. rewrite app_nil_r. reflexivity.
      + intros i Hi. rewrite nth_error_app1; [exact Hi|]. apply nth_error_Some. congruence.
    - destruct (IH _ _ _ H Hk) as (n & E & Hn). exists (length l0 + n)%nat. split.
      + rewrite firstn_app_2, E, app_assoc. reflexivity.
      + intros i Hi. rewrite nth_error_app2 by lia.
        replace (length l0 + n - length l0)%nat with n by lia. auto.
  Qed.

  (** falling through to the next block costs nothing *)
  Lemma point_fall f fn b bl : nth_error (p_funcs p) f = Some fn ->
    nth_error (f_blocks fn) b = Some bl ->
    point_off (PFun f (S b) 0) = point_off (PFun f b (length (b_insns bl))).
  Proof.
    intros Hf Hb. unfold point_off. rewrite Hf, Hb. unfold block_off.
    rewrite (firstn_S_nth _ _ _ (adjs_nth_f _ _ _ Hb)), concat_app, szs_app. cbn [concat].
    rewrite app_nil_r. rewrite (firstn_all2 (adj fn b bl)) by (unfold adj; rewrite map_length; lia).
    destruct (nth_error (f_blocks fn) (S b)); cbn [firstn]; change (szs []) with 0; lia.
  Qed.

  Variable cs : Z.
  Variables (e : env) (ws : list Z).
  Hypothesis Hgen : code_generate T hard p cs = Some (e, ws).
  Hypothesis Hne : Forall (fun f => f_blocks f <> []) (p_funcs p).
  Hypothesis Hids : NoDup (p_sysbb p :: g_bb p :: allids (p_funcs p)).
  Hypothesis Hso_i : Forall size_ok (g_insns p).
  Hypothesis Hso_f : Forall (fun f => Forall size_ok (concat (adjs (f_stack f) (f_blocks f)))) (p_funcs p).
  Hypothesis Hstub : forall e g o w, t_stubs T e g o = Some w -> 4 * Z.of_nat (length w) = t_globofs T.
  Hypothesis Hprel : forall e q g o w, t_prelude T e q g o = Some w -> length w = 6%nat.
  Hypothesis Hdef : forall e q stk w, t_emit T e q (define_ir stk) = Some w -> length w = 4%nat.

  (** what [code_generate] establishes *)
  Record layout_facts := {
    lf_hard : e_hard e = hard;
    lf_code : e_code e = cs;
    lf_data : e_data e = cs + 4 * Z.of_nat (length ws);
    lf_stub : exists w, t_stubs T e (g_stack p) (e_bb e (g_bb p)) = Some w /\ placed ws 0 w;
    lf_gbb : e_bb e (g_bb p) = t_globofs T;
    lf_sys : e_bb e (p_sysbb p) = t_sysofs T;
    lf_init : forall k i, nth_error (g_insns p) k = Some i ->
      exists w, t_emit T e (point_off (PInit k)) i = Some w /\
        placed ws (point_off (PInit k)) w /\
        point_off (PInit (S k)) = point_off (PInit k) + 4 * Z.of_nat (length w);
    lf_prel : exists w, t_prelude T e init_end (g_stack p) (e_bb e (p_mainbb p)) = Some w /\
        placed ws init_end w;
    lf_def : forall f fn, nth_error (p_funcs p) f = Some fn ->
      exists w, t_emit T e (func_off f) (define_ir (f_stack fn)) = Some w /\
        placed ws (func_off f) w /\ length w = 4%nat;
    lf_insn : forall f fn b bl k i, nth_error (p_funcs p) f = Some fn ->
      nth_error (f_blocks fn) b = Some bl -> nth_error (adj fn b bl) k = Some i ->
      exists w, t_emit T e (point_off (PFun f b k)) i = Some w /\
        placed ws (point_off (PFun f b k)) w /\
        point_off (PFun f b (S k)) = point_off (PFun f b k) + 4 * Z.of_nat (length w);
    lf_bb : forall f fn b bl, nth_error (p_funcs p) f = Some fn ->
      nth_error (f_blocks fn) b = Some bl ->
      e_bb e (b_id bl) = match b with O => func_off f | _ => point_off (PFun f b 0) end;
    lf_cut_i : forall k, placed ws (point_off (PInit k)) [];
    lf_cut_f : forall f fn b bl k, nth_error (p_funcs p) f = Some fn ->
      nth_error (f_blocks fn) b = Some bl -> (k <= length (b_insns bl))%nat ->
      placed ws (point_off (PFun f b k)) [];
    lf_rest : forall id, ~ In id (allids (p_funcs p)) ->
      e_bb e id = 0 \/ e_bb e id = t_sysofs T \/ e_bb e id = t_globofs T;
    lf_fn : forall n, e_fn e n = option_map (e_bb e) (find_entry p n);
    lf_si : Forall sized (g_insns p);
    lf_sf : Forall (fun f => Forall sized (concat (adjs (f_stack f) (f_blocks f)))) (p_funcs p)
  }.

  Lemma concat_flat (fs : list func) : forall f fn, nth_error fs f = Some fn ->
    exists pre post, concat (map flat1 fs) = pre ++ flat1 fn ++ post /\
      pre = concat (map flat1 (firstn f fs)).
  Proof.
    induction fs as [|g r IH]; intros [|f] fn H; cbn in *; try discriminate.
    - inversion H; subst. exists [], (concat (map flat1 r)). auto.
    - destruct (IH _ _ H) as (pre & post & -> & ->).
      exists (flat1 g ++ concat (map flat1 (firstn f r))), post. split; auto.
      rewrite <- app_assoc. reflexivity.
  Qed.

  Lemma emit_flat1 q f w : e_hard e = hard ->
    Forall sized (concat (adjs (f_stack f) (f_blocks f))) ->
    Forall size_ok (concat (adjs (f_stack f) (f_blocks f))) ->
    emit_list T e q (flat1 f) = Some w ->
    4 * Z.of_nat (length w) = fsize f /\
    exists w0 w1, t_emit T e q (define_ir (f_stack f)) = Some w0 /\ length w0 = 4%nat /\
      emit_list T e (q + 16) (concat (adjs (f_stack f) (f_blocks f))) = Some w1 /\ w = w0 ++ w1.
  Proof.
    intros Hh Fs Fo H. unfold flat1 in H. cbn [emit_list] in H.
    destruct (t_emit T e q _) as [w0|] eqn:E0; [|discriminate].
    pose proof (Hdef _ _ _ _ E0) as L0. rewrite L0 in H. change (4 * Z.of_nat 4) with 16 in H.
    destruct (emit_list T e _ _) as [w1|] eqn:E1; [|discriminate].
    inversion H; subst w. split.
    - rewrite app_length, L0. unfold fsize. rewrite <- (emit_size _ _ _ _ Hh Fs Fo E1). lia.
    - exists w0, w1. auto.
  Qed.

  Lemma emit_flats fs : forall q w, e_hard e = hard ->
    Forall (fun f => Forall sized (concat (adjs (f_stack f) (f_blocks f)))) fs ->
    Forall (fun f => Forall size_ok (concat (adjs (f_stack f) (f_blocks f)))) fs ->
    emit_list T e q (concat (map flat1 fs)) = Some w ->
    4 * Z.of_nat (length w) = sumz (map fsize fs) /\
    forall k f, nth_error fs k = Some f ->
      exists wf, emit_list T e (q + sumz (map fsize (firstn k fs))) (flat1 f) = Some wf /\
        placed w (sumz (map fsize (firstn k fs))) wf.
  Proof.
    induction fs as [|f r IH]; intros q w Hh Fs Fo H.
    - cbn in H. inversion H; subst. split; [reflexivity|]. intros [|k] f E; discriminate.
    - cbn [map concat] in H. inversion Fs; inversion Fo; subst.
      destruct (emit_app _ _ _ _ _ H) as (w1 & w2 & E1 & E2 & ->).
      destruct (emit_flat1 q f w1) as (L1 & _); auto.
      destruct (IH _ _ Hh ltac:(eassumption) ltac:(eassumption) E2) as (L2 & HN).
      split.
      + rewrite app_length. cbn [map sumz]. lia.
      + intros [|k] g Hk; cbn [nth_error] in Hk.
        * inversion Hk; subst g. exists w1. cbn [firstn map sumz]. rewrite Z.add_0_r.
          split; auto. exists [], w2. auto.
        * destruct (HN _ _ Hk) as (wf & Ew & Pw). exists wf. cbn [firstn map sumz].
          rewrite <- L1. split.
          -- rewrite Z.add_assoc. exact Ew.
          -- pose proof (placed_shift w1 w2 [] _ _ Pw) as P. rewrite app_nil_r in P. exact P.
  Qed.

  Theorem layout_ok : layout_facts.
  Proof.
    pose proof Hgen as H. unfold code_generate in H.
    destruct (cfg_flatten T hard p) as [[[off ofs] flat]|] eqn:Ef; [|discriminate].
    unfold cfg_flatten in Ef.
    destruct (sizes T hard (g_insns p) (t_globofs T)) as [off0|] eqn:Es; [|discriminate].
    destruct (sizes_spec _ _ _ Es) as (Eoff0 & Fsi).
    set (e0 := mkenv_of hard p cs off ofs) in *.
    destruct (t_stubs T e0 _ _) as [w0|] eqn:E0; [|discriminate].
    destruct (emit_list T e0 _ (g_insns p)) as [w1|] eqn:E1; [|discriminate].
    destruct (t_prelude T e0 _ _ _) as [w2|] eqn:E2; [|discriminate].
    destruct (emit_list T e0 _ flat) as [w3|] eqn:E3; [|discriminate].
    injection H as Ee Ew.
    pose proof (Hstub _ _ _ _ E0) as L0. pose proof (Hprel _ _ _ _ _ E2) as L2.
    assert (e_hard e = hard) as Hh by (rewrite <- Ee; reflexivity).
    rewrite Ee in *.
    pose proof (emit_size _ _ _ _ Hh Fsi Hso_i E1) as L1.
    rewrite L0 in *. rewrite L1 in *. rewrite L2 in *. change (4 * Z.of_nat 6) with 24 in *.
    destruct (fl_funcs_spec _ _ _ _ _ _ Hne Ef) as (Efl & Eof & Fsf & Hout & Hin).
    subst flat off0.
    destruct (emit_flats _ _ _ Hh Fsf Hso_f E3) as (L3 & HN).
    inversion Hids as [|? ? Hn1 Hids1]; subst x l.
    inversion Hids1 as [|? ? Hn2 Hids2]; subst x l.
    assert (e_bb e = ofs) as Ebb by (rewrite <- Ee; reflexivity).
    assert (4 * Z.of_nat (length ws) = init_end + 24 + sumz (map fsize (p_funcs p))) as Lw.
    { rewrite <- Ew, !app_length, L2. unfold init_end. lia. }
    assert (Hgb : e_bb e (g_bb p) = t_globofs T).
    { rewrite Ebb, Hout by assumption. unfold upd. rewrite Z.eqb_refl. reflexivity. }
    assert (Hpt : forall f fn b bl, nth_error (p_funcs p) f = Some fn ->
      nth_error (f_blocks fn) b = Some bl ->
      e_bb e (b_id bl) = match b with O => func_off f | _ => point_off (PFun f b 0) end).
    { intros f fn b bl Hf Hb. rewrite Ebb, (Hin Hids2 _ _ _ _ Hf Hb).
      unfold point_off. rewrite Hf, Hb. unfold func_off, init_end.
      destruct b; cbn [firstn]; change (szs []) with 0; lia. }
    constructor; auto.
    - rewrite <- Ee. reflexivity.
    - rewrite Lw, <- Ee. cbn. unfold init_end. lia.
    - exists w0. rewrite Ebb. split; auto. exists [], (w1 ++ w2 ++ w3). auto.
    - rewrite Ebb, Hout.
      + unfold upd. destruct (Z.eqb_spec (p_sysbb p) (g_bb p)) as [Eq|Eq].
        * exfalso. apply Hn1. left. congruence.
        * rewrite Z.eqb_refl. reflexivity.
      + intros Hx. apply Hn1. right. exact Hx.
    - intros k i Hk.
      destruct (emit_nth _ _ _ _ _ _ Hh Fsi Hso_i E1 Hk) as (w & Em & Pl & Lz).
      exists w. unfold point_off. repeat split; auto.
      + rewrite <- Ew, <- L0. apply placed_shift. exact Pl.
      + rewrite (firstn_S_nth _ _ _ Hk), szs_app, szs_cons. change (szs []) with 0. lia.
    - exists w2. rewrite Ebb. unfold init_end. split; auto.
      exists (w0 ++ w1), w3. split.
      + rewrite <- Ew, <- app_assoc. reflexivity.
      + rewrite app_length. lia.
    - intros f fn Hf. destruct (HN _ _ Hf) as (wf & Ewf & Pwf).
      assert (In fn (p_funcs p)) as Hi by (eapply nth_error_In; eauto).
      rewrite Forall_forall in Fsf, Hso_f.
      destruct (emit_flat1 _ _ _ Hh (Fsf _ Hi) (Hso_f _ Hi) Ewf) as (_ & u0 & u1 & Eu0 & Lu0 & Eu1 & Eu).
      exists u0. unfold func_off, init_end. repeat split; auto.
      destruct Pwf as (a & b & Ea & Eo). exists (w0 ++ w1 ++ w2 ++ a), (u1 ++ b). split.
      + rewrite <- Ew, Ea, Eu, <- !app_assoc. reflexivity.
      + rewrite !app_length, L2. lia.
    - intros f fn b bl k i Hf Hb Hk. destruct (HN _ _ Hf) as (wf & Ewf & Pwf).
      assert (In fn (p_funcs p)) as Hi by (eapply nth_error_In; eauto).
      rewrite Forall_forall in Fsf, Hso_f.
      destruct (emit_flat1 _ _ _ Hh (Fsf _ Hi) (Hso_f _ Hi) Ewf) as (_ & u0 & u1 & Eu0 & Lu0 & Eu1 & Eu).
      assert (k < length (adj fn b bl))%nat as Hkl by (apply nth_error_Some; congruence).
      destruct (szs_firstn_concat _ _ _ k (adjs_nth_f _ _ _ Hb) ltac:(lia)) as (n & En & Hn).
      destruct (emit_nth _ _ _ _ _ _ Hh (Fsf _ Hi) (Hso_f _ Hi) Eu1 (Hn _ Hk)) as (w & Em & Pl & Lz).
      rewrite En, szs_app in Em, Pl.
      exists w. unfold point_off. rewrite Hf, Hb. unfold func_off, block_off, init_end.
      repeat split.
      + rewrite <- Em. f_equal. lia.
      + destruct Pwf as (a & c & Ea & Eo). destruct Pl as (a' & c' & Ea' & Eo').
        exists (w0 ++ w1 ++ w2 ++ a ++ u0 ++ a'), (c' ++ c). split.
        * rewrite <- Ew, Ea, Eu, Ea', <- !app_assoc. reflexivity.
        * rewrite !app_length, L2, Lu0. lia.
      + rewrite (firstn_S_nth _ _ _ Hk), szs_app, szs_cons. change (szs []) with 0. lia.
    - intros k. unfold point_off. rewrite <- Ew, <- L0. apply placed_shift.
      eapply emit_cut; eauto.
    - intros f fn b bl k Hf Hb Hk. destruct (HN _ _ Hf) as (wf & Ewf & Pwf).
      assert (In fn (p_funcs p)) as Hi by (eapply nth_error_In; eauto).
      rewrite Forall_forall in Fsf, Hso_f.
      destruct (emit_flat1 _ _ _ Hh (Fsf _ Hi) (Hso_f _ Hi) Ewf) as (_ & u0 & u1 & Eu0 & Lu0 & Eu1 & Eu).
      assert (k <= length (adj fn b bl))%nat as Hkl by (unfold adj; rewrite map_length; lia).
      destruct (szs_firstn_concat _ _ _ k (adjs_nth_f _ _ _ Hb) Hkl) as (n & En & Hn).
      pose proof (emit_cut _ _ n _ _ Hh (Fsf _ Hi) (Hso_f _ Hi) Eu1) as Pl.
      rewrite En, szs_app in Pl.
      unfold point_off. rewrite Hf, Hb. unfold func_off, block_off, init_end.
      destruct Pwf as (a & c & Ea & Eo). destruct Pl as (a' & c' & Ea' & Eo').
      exists (w0 ++ w1 ++ w2 ++ a ++ u0 ++ a'), (c' ++ c). split.
      + rewrite <- Ew, Ea, Eu, Ea', <- !app_assoc. reflexivity.
      + rewrite !app_length, L2, Lu0. lia.
    - intros id Hni. rewrite Ebb, Hout by assumption. unfold upd.
      destruct (id =? g_bb p); auto. destruct (id =? p_sysbb p); auto.
    - intros n. rewrite <- Ee. cbn. destruct (find_entry p n); reflexivity.
  Qed.
End Lay.

(** consequences stated for readers *)
Lemma placed_cat ws o w1 w2 : placed ws o w1 -> placed ws (o + 4 * Z.of_nat (length w1)) w2 ->
  placed ws o (w1 ++ w2).
Proof.
  intros (p1 & q1 & E1 & ->) (p2 & q2 & E2 & Eo).
  assert (length p2 = length (p1 ++ w1)) as El by (rewrite app_length; lia).
  rewrite E1, app_assoc in E2.
  assert (forall (a b c d : list Z), a ++ b = c ++ d -> length c = length a -> a = c /\ b = d) as app_inv.
  { clear. induction a as [|x a IH]; intros b [|y c] d H Hl; cbn in *; try discriminate; auto.
    inversion H; subst. destruct (IH _ _ _ H2 ltac:(lia)) as [-> ->]. auto. }
  apply app_inv in E2; [|exact El]. destruct E2 as [_ E2]. subst q1.
  exists p1, q2. split; [|reflexivity]. rewrite E1, <- app_assoc. reflexivity.
Qed.

Section Readers.
  Variables (T : target) (hard : bool) (p : program) (cs : Z) (e : env) (ws : list Z).
  Hypothesis LF : layout_facts T hard p cs e ws.

  (** the instructions of every block lie, in order, at the address recorded for the block *)
  Theorem block_emitted f fn b bl : nth_error (p_funcs p) f = Some fn ->
    nth_error (f_blocks fn) b = Some bl ->
    exists w, emit_list T e (e_bb e (b_id bl) + match b with O => 16 | _ => 0 end) (adj T fn b bl) = Some w /\
      placed ws (e_bb e (b_id bl) + match b with O => 16 | _ => 0 end) w.
  Proof.
    intros Hf Hb.
    assert (e_bb e (b_id bl) + match b with O => 16 | _ => 0 end = point_off T hard p (PFun f b 0)) as ->.
    { rewrite (lf_bb _ _ _ _ _ _ LF _ _ _ _ Hf Hb). destruct b; [|lia].
      unfold point_off. rewrite Hf, Hb. unfold block_off. cbn [firstn concat].
      change (szs T hard []) with 0. lia. }
    assert (forall n k, (n + k = length (adj T fn b bl))%nat ->
      exists w, emit_list T e (point_off T hard p (PFun f b k)) (skipn k (adj T fn b bl)) = Some w /\
        placed ws (point_off T hard p (PFun f b k)) w) as H.
    { induction n as [|n IH]; intros k Hk.
      - rewrite skipn_all2 by lia. exists []. split; [reflexivity|].
        eapply (lf_cut_f _ _ _ _ _ _ LF); eauto.
        unfold adj in Hk. rewrite map_length in Hk. lia.
      - destruct (nth_error (adj T fn b bl) k) as [i|] eqn:Ei.
        2:{ apply nth_error_None in Ei. lia. }
        destruct (lf_insn _ _ _ _ _ _ LF _ _ _ _ _ _ Hf Hb Ei) as (wi & Ew & Pw & En).
        destruct (IH (S k) ltac:(lia)) as (w & Er & Pr).
        assert (skipn k (adj T fn b bl) = i :: skipn (S k) (adj T fn b bl)) as ->.
        { clear - Ei. revert k Ei. induction (adj T fn b bl) as [|x r IH]; intros [|k] H; cbn in *;
            try discriminate; [inversion H; reflexivity|]. apply IH; auto. }
        cbn [emit_list]. rewrite Ew, <- En, Er. exists (wi ++ w). split; [reflexivity|].
        apply placed_cat; auto. rewrite <- En. exact Pr. }
    destruct (H _ O (Nat.add_0_r _)) as (w & E & P). exists w. auto.
  Qed.

  Theorem function_emitted f fn bl : nth_error (p_funcs p) f = Some fn ->
    nth_error (f_blocks fn) 0 = Some bl ->
    exists w, t_emit T e (e_bb e (b_id bl)) (define_ir (f_stack fn)) = Some w /\
      placed ws (e_bb e (b_id bl)) w.
  Proof.
    intros Hf Hb. rewrite (lf_bb _ _ _ _ _ _ LF _ _ _ _ Hf Hb).
    destruct (lf_def _ _ _ _ _ _ LF _ _ Hf) as (w & Ew & Pw & _). eauto.
  Qed.
End Readers.
