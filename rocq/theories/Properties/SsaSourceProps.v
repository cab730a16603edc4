(** C48, C49, C50: SSA construction of the functions the parser makes, whatever their tokens are. *)
From Coq Require Import String.
From Verif.Mid Require Import Graph Insn AllocSpec Ssa SsaSpec SsaOnce SsaCheck SsaReach CfgProofs OrderProofs DomProofs DomOrder SsaTree.
From Verif.Front Require Import StmtEval StmtExec StmtShape.
From Verif.Properties Require Import StmtProps SsaProps SsaFormProps.
Open Scope Z_scope.

(** ** C49 from the source: nothing is assumed of the code that SSA construction gets but that the parser made it *)
Section Source.
  Variable F : pst.
  Hypothesis I : ParseShape.inv F.
  Lemma edge_ok a c : In c (succs (graph_of F) a) -> a <> 1%nat /\ (0 < c < p_blk F)%nat.
  Proof.
    unfold succs. cbn. rewrite !in_app_iff. intros H. apply (in_edges _ I). destruct H as [H|[H|H]].
    - left. destruct (p_next F a); [destruct H as [<-|[]]; reflexivity|destruct H].
    - right. left. destruct (p_then F a); [destruct H as [<-|[]]; reflexivity|destruct H].
    - right. right. destruct (p_else F a); [destruct H as [<-|[]]; reflexivity|destruct H].
  Qed.
  Lemma source_reach b : reach (succs (graph_of F)) 0 b -> In b (List.seq 0 (p_blk F)).
  Proof.
    intros H. apply in_seq. inversion H as [x|x c d Rc Ed]; subst; [pose proof (proj2 (in_exit _ I)); lia|]. apply edge_ok in Ed. lia.
  Qed.
  Lemma source_preds a b : In a (preds (graph_of F) b) <-> (a < p_blk F)%nat /\ In b (succs (graph_of F) a).
  Proof.
    unfold preds. cbn [graph_of g_prev]. rewrite in_flat_map. split.
    - intros (x & J & K). apply in_map_iff in J as (y & <- & J). destruct K as [<-|[]]. apply filter_In in J as [J Q]. apply in_seq in J. apply mem_In in Q. split; [lia|exact Q].
    - intros [L Q]. exists (Some a). split; [|left; reflexivity]. apply in_map_iff. exists a. split; [reflexivity|]. apply filter_In. split; [apply in_seq; lia|apply mem_In; exact Q].
  Qed.
  Lemma source_agree a b : reach (succs (graph_of F)) 0 a -> reach (succs (graph_of F)) 0 b -> (In a (preds (graph_of F) b) <-> In b (succs (graph_of F) a)).
  Proof. intros Ra _. rewrite source_preds. apply source_reach, in_seq in Ra. intuition lia. Qed.
  Lemma source_shape V params :
    NoDup params -> (forall x, In x params -> v_global V x = false /\ (x < p_var F)%nat) -> (forall v, v_func V v = None) ->
    (forall b p, reach (succs (graph_of F)) 0 b -> In p (preds (graph_of F) b) -> reach (succs (graph_of F)) 0 p) ->
    ssa_shape V (graph_of F) 0 1 params (p_var F) (p_code F).
  Proof.
    intros ND Hp Hf Hr. assert (Hi : forall b i, In i (plain_code (p_code F) b) -> insn_ok (p_var F) i).
    { intros b i J. apply in_map_iff in J as (r & <- & J). apply (lo_insn _ _ (in_code _ I b) r J). }
    constructor.
    - intros a b Rb. split; [intros J; split; [eapply Hr; eassumption|apply source_preds; exact J]|]. intros [Ra J]. apply source_preds. split; [|exact J]. apply source_reach, in_seq in Ra. lia.
    - destruct (preds (graph_of F) 0) as [|a l] eqn:E; [reflexivity|]. assert (J : In a (preds (graph_of F) 0)) by (rewrite E; left; reflexivity). apply source_preds in J as [_ J]. apply edge_ok in J. lia.
    - split; [apply (in_exit _ I)|]. destruct (succs (graph_of F) 1) as [|a l] eqn:E; [reflexivity|]. assert (J : In a (succs (graph_of F) 1)) by (rewrite E; left; reflexivity). apply edge_ok in J. destruct J as [J _]. congruence.
    - intros b i x _ J H. apply (io_vars _ _ (Hi b i J) x H).
    - split; assumption.
    - intros b l1 i l2 _ E Bi. unfold plain_code in E. apply map_eq_app in E as (k1 & k2 & E & E1 & E2). destruct k2 as [|r k2]; [discriminate|]. cbn in E2. injection E2 as <- <-.
      rewrite (lo_branch _ _ (in_code _ I b) k1 r k2 E Bi). reflexivity.
    - intros b l i _ E. unfold plain_code in E. apply map_eq_app in E as (k1 & k2 & E & E1 & E2). destruct k2 as [|r [|]]; try discriminate. injection E2 as <-. apply (lo_push _ _ (in_code _ I b) k1 r E).
    - intros b i _ J. apply (io_dest _ _ (Hi b i J)).
    - intros b i _ J. apply (io_plain _ _ (Hi b i J)).
    - intros b i y _ _ _ Q. destruct (Q (Hf y)).
  Qed.
End Source.

(** ts: any tokens; F: what the parser makes of them; a: what SSA construction makes of that *)
Theorem C49_from_source : forall find_constant find_global find_type find_func special lim params k ts nvars ts' F e V in_scope declared temp fuel n a,
  let ids := map (fun p => vi_id (snd p)) params in
  (forall x v, find_global x = Some v -> (vi_id v < nvars)%nat) ->
  (forall x, In x ids -> v_global V x = false /\ (x < nvars)%nat) -> NoDup ids -> (forall v, v_func V v = None) ->
  read_func_body find_constant find_global find_type find_func special lim params k ts nvars = Some (ts', F, e) ->
  (2 * p_blk F < fuel)%nat -> (p_blk F * (p_blk F + 1) < n)%nat ->
  ssa_build fuel n V in_scope declared temp (graph_of F) 0 1 ids (p_var F) (p_code F) = Some a ->
  ssa_shape V (graph_of F) 0 1 ids (p_var F) (p_code F) /\
  ssa_form (versions V (ss_base a)) (graph_of F) 0 (ss_params a) (ss_code a).
Proof.
  intros fc fg ft ff special lim params k ts nvars ts' F e V in_scope declared temp fuel n a ids Hg Hp ND Hf H F1 F2 Ha.
  destruct (func_inv fc fg ft ff special lim params k ts nvars ts' F e Hg) as [I L]; [intros p J; apply (Hp (vi_id (snd p))); apply in_map_iff; exists p; auto|exact H|].
  assert (HL : List.length (List.seq 0 (p_blk F)) = p_blk F) by apply seq_length.
  assert (S : ssa_shape V (graph_of F) 0 1 ids (p_var F) (p_code F)).
  { apply source_shape; auto; [intros x J; destruct (Hp x J); split; [assumption|lia]|].
    eapply build_reach with (blocks := List.seq 0 (p_blk F)); [apply (source_agree F I)|apply (source_reach F I)|rewrite HL; exact F1|rewrite HL; exact F2|exact Ha]. }
  split; [exact S|]. eapply C49_ssa_form with (blocks := List.seq 0 (p_blk F)); [exact S|apply (source_reach F I)|rewrite HL; exact F1|rewrite HL; exact F2|exact Ha].
Qed.
Print Assumptions C49_from_source.

(** ** C48 from the source: of ssa_input, only what it says about where variables are needed is left to assume *)
Theorem C48_from_source_partial :
  forall find_constant find_global find_type find_func special lim {world : Type} (M : meaning Z world) V goff place void
         params k q rest nvars ts' F e T in_scope declared temp fuel n a,
  let ids := map (fun p => vi_id (snd p)) params in
  (* as in C47_function_partial *)
  c_like M ->
  (forall x v, find_global x = Some v -> v_global V (vi_id v) = true /\ 0 <= vi_ptr v /\ (vi_id v < nvars)%nat) ->
  (forall p, In p params -> v_global V (vi_id (snd p)) = false /\ (vi_id (snd p) < nvars)%nat /\ 0 <= vi_ptr (snd p) /\ find_constant (fst p) = None) ->
  NoDup ids ->
  sgram true q ->
  fine_stmt (is_constant find_constant) find_type (gtype find_global) (is_func find_func) special q (ctypes [[]; params]) = Some T ->
  read_func_body find_constant find_global find_type find_func special lim params k
    ((T_open_curly, []) :: stokens q ++ (T_close_curly, []) :: rest) nvars = Some (ts', F, e) ->
  (forall v, (nvars <= v)%nat -> v_global V v = false /\ v_init V v = p_init F v) -> (forall v, v_func V v = None) ->
  (forall v, In v (c_locals e) -> no_storage V (vi_id v) = (vi_array v =? 0)) ->
  places q = map place (arrays_of e) ->
  let R := reach (succs (graph_of F)) 0 in
  (* a local variable whose value is still needed in b is visible in b and not declared there *)
  (forall b x, R b -> b <> 0%nat -> v_global V x = false -> live_in (graph_of F) (p_code F) x b -> in_scope x b = true /\ ~ In x (declared b)) ->
  (* the result of && || ?: is joined where its values meet, and not needed at later joins of other paths *)
  (forall a y b x, R b -> temp x = true -> defines (p_code F) a x -> frontier (succs (graph_of F)) 0 a y -> frontier (succs (graph_of F)) 0 y b ->
    live_in (graph_of F) (p_code F) x b -> exists a', R a' /\ defines (p_code F) a' x /\ frontier (succs (graph_of F)) 0 a' b) ->
  (2 * p_blk F < fuel)%nat -> (p_blk F * (p_blk F + 1) < n)%nat ->
  ssa_build fuel n V in_scope declared temp (graph_of F) 0 1 ids (p_var F) (p_code F) = Some a ->
  forall env env' w out E' w',
    (forall j x d, nth_error ids j = Some x -> nth_error (ss_params a) j = Some d -> env' d = env x) ->
    exec find_constant find_type (gtype find_global) (gget find_global M goff) (gput find_global M goff) (m_read M) (m_write M) (do_call find_func M)
      q (at_start params env) w out E' w' ->
    let result := sruns M (versions V (ss_base a)) goff (fun d => place (ss_base a d)) (ss_code a) (p_next F) (p_then F) (p_else F) 1 void 0 (mks env' w [] None) in
    let finishes r := result w' r /\ forall w'' r', result w'' r' -> w'' = w' /\ r' = r in
    match out with
    | OReturn r => finishes r
    | ONormal => void = true -> finishes None
    | OBreak | OContinue => False
    end.
Proof.
  intros fc fg ft ff special lim world M V goff place void params k q rest nvars ts' F e T in_scope declared temp fuel n a ids HM Hgl Hp ND G Fi H HV Hfun HL Pl R Hs Ht F1 F2 Ha env env' w out E' w' He X.
  assert (Hg : forall x v, fg x = Some v -> (vi_id v < nvars)%nat) by (intros x v Q; apply (Hgl x v Q)).
  assert (Hp' : forall x, In x ids -> v_global V x = false /\ (x < nvars)%nat) by (intros x J; apply in_map_iff in J as (p & <- & J); destruct (Hp p J) as (? & ? & _); auto).
  pose proof (C49_from_source fc fg ft ff special lim params k _ nvars ts' F e V in_scope declared temp fuel n a Hg Hp' ND Hfun H F1 F2 Ha) as [S _].
  assert (Hq : forall p, In p params -> (vi_id (snd p) < nvars)%nat) by (intros p J; apply (Hp p J)).
  destruct (func_inv fc fg ft ff special lim params k _ nvars ts' F e Hg Hq H) as [I L].
  assert (HLen : List.length (List.seq 0 (p_blk F)) = p_blk F) by apply seq_length.
  refine (C48_source_to_ssa_partial fc fg ft ff special lim M V goff place void params k q rest nvars ts' F e T in_scope declared temp (List.seq 0 (p_blk F)) fuel n a HM _ Hp ND G Fi H HV Hfun HL Pl _ (source_reach F I) _ _ Ha env env' w out E' w' He X).
  - intros x v Q. destruct (Hgl x v Q) as (? & ? & _). auto.
  - constructor; [exact S|intros b x Rb Nb Gx Lx; apply (Hs b x Rb Nb Gx Lx)..|exact Ht].
  - rewrite HLen. exact F1.
  - rewrite HLen. exact F2.
Qed.
Print Assumptions C48_from_source_partial.

(** ** C50: SSA construction follows no null pointer *)
(** when the phase that computes dominance frontiers succeeds: build_df, with dominators from build_idom *)
Theorem C50_null_iff : forall g entry blocks fuel n,
  let R := reach (succs g) entry in
  (forall a b, R a -> R b -> (In a (preds g b) <-> In b (succs g a))) -> (forall b, R b -> In b blocks) ->
  (2 * List.length blocks < fuel)%nat -> (List.length blocks * (List.length blocks + 1) < n)%nat ->
  exists v vis o T, build_rpo fuel g entry 0 (fun _ => 0) (mkorder (fun _ => 0) (fun _ => None) 0) = Some (v, vis, o) /\
    build_idom fuel n g o entry (fun _ => None) = Some T /\
    forall v2 vis2, (forall x, R x -> vis2 x = v2) ->
      ((exists r, build_df fuel g T entry v2 vis2 (fun _ => []) = Some r) <-> (forall b p, R b -> In p (preds g b) -> R p)).
Proof.
  intros g entry blocks fuel n R I2 HU F1 F2.
  destruct (order_blocks_ok (succs g) entry blocks (fun _ => 0) 0 (mkorder (fun _ => 0) (fun _ => None) 0) fuel HU (fun _ _ => eq_refl) (fun _ _ => eq_refl) eq_refl ltac:(lia))
    as (v & o & L & E & G & Hv & _).
  assert (LL : (List.length L <= List.length blocks)%nat).
  { apply NoDup_incl_length; [apply (go_nodup _ _ _ _ _ _ G)|]. intros x Ix. apply HU. apply (go_all _ _ _ _ _ _ G). exact Ix. }
  destruct (ord_solved (succs g) (preds g) entry _ _ _ L G I2 fuel n (fun _ => None) (fun _ => eq_refl)) as (T & E' & S); [lia|lia|nia|].
  pose proof (fr_wf _ _ _ _ _ S) as W. pose proof (fr_some _ _ _ _ _ S) as Ts.
  exists (0 + 3), v, o, T. split; [exact E|]. split; [exact E'|]. intros v2 vis2 Hv2. split.
  - intros ([[v3 vis3] df] & E3) b p Rb Jp. unfold build_df, frontiers in E3.
    destruct (traverse_post_all (succs g) entry blocks vis2 v2 fuel (bb_build_df fuel T (preds g)) (Some (fun _ => [])) HU Hv2 ltac:(lia)) as (vis' & D & Ed & _ & HD & _).
    rewrite Ed in E3. destruct (CfgProofs.fold (bb_build_df fuel T (preds g)) D (Some (fun _ => []))) as [df'|] eqn:E4; [|discriminate].
    destruct (fold_some fuel T (preds g) b D (Some (fun _ => []))) as (df0 & Q); [apply HD; exact Rb|rewrite E4; discriminate|].
    destruct (T p) as [x|] eqn:Ep; [apply (w_reach _ _ _ _ W); rewrite Ep; discriminate|].
    destruct (T b) as [d|] eqn:Eb; [|destruct (Ts b Rb Eb)].
    assert (Nd : T d <> None). { destruct (Nat.eq_dec b entry) as [->|Nb]; [rewrite (w_entry _ _ _ _ W) in Eb; assert (d = entry) by congruence; subst d; rewrite (w_entry _ _ _ _ W); discriminate|apply (w_up _ _ _ _ W _ _ Nb Eb)]. }
    destruct Q. apply (df_all_dead fuel T b p d Eb Nd Ep). exact Jp.
  - intros C. destruct (frontiers_spec (succs g) (preds g) entry _ _ _ L G I2 T S C fuel v2 vis2 (fun _ => [])) as (v3 & df & E3 & _); [lia|exact Hv2|].
    exists (v2 + 1, v3, df). exact E3.
Qed.
Print Assumptions C50_null_iff.

(** so a block that cannot be reached but leads to one that can is fatal, whatever else the function is *)
Theorem C50_dead_predecessor : forall V in_scope declared temp g entry exit params nvars code blocks fuel n b p,
  let R := reach (succs g) entry in
  (forall a b, R a -> R b -> (In a (preds g b) <-> In b (succs g a))) -> (forall b, R b -> In b blocks) ->
  (2 * List.length blocks < fuel)%nat -> (List.length blocks * (List.length blocks + 1) < n)%nat ->
  R b -> In p (preds g b) -> ~ R p ->
  ssa_build fuel n V in_scope declared temp g entry exit params nvars code = None.
Proof.
  intros V in_scope declared temp g entry exit params nvars code blocks fuel n b p R I2 HU F1 F2 Rb Jp Np.
  destruct (ssa_build fuel n V in_scope declared temp g entry exit params nvars code) as [a|] eqn:E; [|reflexivity]. destruct Np.
  exact (build_reach g entry V in_scope declared temp exit params nvars code blocks fuel n a I2 HU F1 F2 E b p Rb Jp).
Qed.
Print Assumptions C50_dead_predecessor.

(** *** C functions that the parser accepts and SSA construction cannot treat *)
Fixpoint spread (n : nat) (g : cfg) (l : list nat) : list nat :=
  match n with O => l | S n => spread n g (nodup Nat.eq_dec (l ++ flat_map (succs g) l)) end.
Definition dead_pred (F : pst) : bool :=
  let g := graph_of F in let l := spread 30 g [0%nat] in
  forallb (fun b => forallb (fun c => Insn.mem c l) (succs g b)) l &&
  existsb (fun b => existsb (fun p => negb (Insn.mem p l)) (preds g b)) l.
Lemma spread_reach n g : forall l, (forall b, In b l -> reach (succs g) 0 b) -> forall b, In b (spread n g l) -> reach (succs g) 0 b.
Proof.
  induction n as [|n IH]; intros l H b J; [apply H; exact J|]. apply (IH (nodup Nat.eq_dec (l ++ flat_map (succs g) l))); [|exact J].
  intros c K. apply nodup_In, in_app_or in K as [K|K]; [apply H; exact K|]. apply in_flat_map in K as (d & Kd & K). eapply reach_step; [apply H; exact Kd|exact K].
Qed.
Lemma spread_zero n g : forall l, In 0%nat l -> In 0%nat (spread n g l).
Proof. induction n as [|n IH]; intros l H; [exact H|]. apply IH, nodup_In, in_or_app. left. exact H. Qed.
Lemma dead_pred_ok F : dead_pred F = true -> exists b p, reach (succs (graph_of F)) 0 b /\ In p (preds (graph_of F) b) /\ ~ reach (succs (graph_of F)) 0 p.
Proof.
  unfold dead_pred. cbv zeta. set (l := spread 30 (graph_of F) [0%nat]). rewrite andb_true_iff, forallb_forall. intros [C X].
  assert (U : forall b, reach (succs (graph_of F)) 0 b -> In b l).
  { assert (Z0 : In 0%nat l) by (apply spread_zero; left; reflexivity). clear X. clearbody l. intros b Rb. remember 0%nat as z eqn:Ez. revert Ez. induction Rb as [x|x c d Rc IH Ed]; intros ->; [exact Z0|]. specialize (C c (IH Z0 eq_refl)). rewrite forallb_forall in C. apply mem_In, C. exact Ed. }
  assert (Ul : forall b, In b l -> reach (succs (graph_of F)) 0 b) by (intros b Jb; apply (spread_reach 30 _ [0%nat]); [intros x [<-|[]]; apply reach_refl|exact Jb]).
  clearbody l. apply existsb_exists in X as (b & Jb & X). apply existsb_exists in X as (p & Jp & X). exists b, p. split; [auto|split; [exact Jp|]].
  intros Rp. apply U, mem_In in Rp. rewrite Rp in X. discriminate X.
Qed.
Definition fatal (q : stmt) : Prop := sgram true q /\ exists ts F e, demo_read q = Some (ts, F, e) /\
  forall V in_scope declared temp params fuel n, (2 * p_blk F < fuel)%nat -> (p_blk F * (p_blk F + 1) < n)%nat ->
    ssa_build fuel n V in_scope declared temp (graph_of F) 0 1 params (p_var F) (p_code F) = None.
Lemma fatal_check q : sgram true q -> match demo_read q with Some (_, F, _) => dead_pred F | None => false end = true -> fatal q.
Proof.
  intros G H. split; [exact G|]. destruct (demo_read q) as [[[ts F] e]|] eqn:E; [|discriminate]. exists ts, F, e. split; [reflexivity|].
  intros V in_scope declared temp params fuel n F1 F2. destruct (dead_pred_ok F H) as (b & p & Rb & Jp & Np).
  assert (Hg : forall x v, demo_global x = Some v -> (vi_id v < 2)%nat) by (intros x v; unfold demo_global; destruct (is x "total"); [intros Q; injection Q as <-; cbn; lia|discriminate]).
  assert (Hp : forall p0, In p0 demo_params -> (vi_id (snd p0) < 2)%nat) by (intros p0 [<-|[]]; cbn; lia).
  destruct (func_inv demo_constant demo_global demo_type demo_func demo_special 1000 demo_params 200 _ 2 ts F e Hg Hp E) as [I _].
  eapply C50_dead_predecessor with (blocks := List.seq 0 (p_blk F)); [apply (source_agree F I)|apply (source_reach F I)|rewrite seq_length; exact F1|rewrite seq_length; exact F2|exact Rb|exact Jp|exact Np].
Qed.
(** { for (; n < 3; n++) return n; return 0; } : the block of n++ leads to the condition, but nothing to it *)
Definition for_return : stmt := StmtProps.seq [SFor FNone (Some (RBin BLt (v "n") (num "3"))) (Some (Post (lv "n") BAdd)) (SReturn (Some (v "n"))); SReturn (Some zero)].
(** { do return n; while (n && total); } : the second half of the condition leads back to the body *)
Definition do_return : stmt := StmtProps.seq [SDo (SReturn (Some (v "n"))) (RBin LAnd (v "n") (v "total")); SReturn (Some zero)].
Theorem C50_for_refuted : fatal for_return.
Proof. apply fatal_check; [unfold for_return; literals|vm_compute; reflexivity]. Qed.
Theorem C50_do_refuted : fatal do_return.
Proof. apply fatal_check; [unfold do_return; literals|vm_compute; reflexivity]. Qed.
Print Assumptions C50_for_refuted.
Print Assumptions C50_do_refuted.

(** in C both are fine: for n = 1 the first returns 1, as does the second *)
Lemma fatal_source : match demo_interp for_return 1 (fun _ => 0), demo_interp do_return 1 (fun _ => 0) with
  | Some (OReturn (Some x), _, _), Some (OReturn (Some y), _, _) => (x =? 1) && (y =? 1) | _, _ => false end = true.
Proof. vm_compute. reflexivity. Qed.
Theorem C50_refuted_programs_meaning :
  (exists w', demo_exec for_return 1 (fun _ => 0) (OReturn (Some 1)) w') /\ (exists w', demo_exec do_return 1 (fun _ => 0) (OReturn (Some 1)) w').
Proof.
  pose proof fatal_source as Q. destruct (demo_interp for_return 1 (fun _ => 0)) as [[[o1 E1] w1]|] eqn:Q1; [|discriminate Q]. destruct o1 as [| | |[x|]]; try discriminate Q.
  destruct (demo_interp do_return 1 (fun _ => 0)) as [[[o2 E2] w2]|] eqn:Q2; [|discriminate Q]. destruct o2 as [| | |[y|]]; try discriminate Q.
  apply andb_true_iff in Q as [Qx Qy]. apply Z.eqb_eq in Qx, Qy. subst x y. split; eexists; eapply demo_interp_ok; eassumption.
Qed.
Print Assumptions C50_refuted_programs_meaning.

(** ** The function of C48_example, here without a check of its form *)
Definition loop_ssa_big : option ssa :=
  match loop_F with
  | Some (F, e) => if (p_blk F <=? 40)%nat then ssa_build 100 2000 (demo_V F e) loop_scope loop_declared loop_temp (graph_of F) 0 1 [1%nat] (p_var F) (p_code F) else None
  | None => None
  end.
Lemma loop_big_some : match loop_ssa_big with Some _ => true | None => false end = true.
Proof. vm_compute. reflexivity. Qed.
Lemma loop_big_is : loop_ssa_big = match loop_F with
  | Some (F, e) => if (p_blk F <=? 40)%nat then ssa_build 100 2000 (demo_V F e) loop_scope loop_declared loop_temp (graph_of F) 0 1 [1%nat] (p_var F) (p_code F) else None
  | None => None end.
Proof. unfold loop_ssa_big. reflexivity. Qed.
Lemma loop_F_is : loop_F = match demo_read loop_prog with Some (_, F, e) => Some (F, e) | None => None end.
Proof. unfold loop_F. reflexivity. Qed.
Theorem C49_from_source_example : exists F e a, loop_F = Some (F, e) /\ loop_ssa_big = Some a /\
  ssa_shape (demo_V F e) (graph_of F) 0 1 [1%nat] (p_var F) (p_code F) /\ ssa_form (versions (demo_V F e) (ss_base a)) (graph_of F) 0 (ss_params a) (ss_code a) /\
  forall b p, reach (succs (graph_of F)) 0 b -> In p (preds (graph_of F) b) -> reach (succs (graph_of F)) 0 p.
Proof.
  pose proof loop_big_some as H. pose proof loop_big_is as Q. pose proof loop_F_is as R. destruct loop_ssa_big as [a|]; [|discriminate H]. clear H.
  destruct (demo_read loop_prog) as [[[ts F] e]|] eqn:E; [|rewrite R in Q; discriminate Q]. rewrite R in Q. destruct (p_blk F <=? 40)%nat eqn:B; [|discriminate Q]. apply Nat.leb_le in B. symmetry in Q.
  exists F, e, a. split; [exact R|]. split; [reflexivity|].
  assert (Hg : forall x v, demo_global x = Some v -> (vi_id v < 2)%nat) by (intros x v; unfold demo_global; destruct (is x "total"); [intros J; injection J as <-; cbn; lia|discriminate]).
  assert (Hp : forall x, In x [1%nat] -> v_global (demo_V F e) x = false /\ (x < 2)%nat) by (intros x [<-|[]]; cbn; split; [reflexivity|lia]).
  assert (ND : NoDup [1%nat]) by (constructor; [intros []|constructor]).
  assert (F1 : (2 * p_blk F < 100)%nat) by lia. assert (F2 : (p_blk F * (p_blk F + 1) < 2000)%nat) by nia.
  pose proof (C49_from_source demo_constant demo_global demo_type demo_func demo_special 1000 demo_params 200 _ 2 ts F e (demo_V F e) loop_scope loop_declared loop_temp 100 2000 a
    Hg Hp ND (fun _ => eq_refl) E F1 F2 Q) as [S Y].
  split; [exact S|]. split; [exact Y|]. intros b p Rb J. apply (si_preds _ _ _ _ _ _ _ S p b Rb) in J. apply J.
Qed.
Print Assumptions C49_from_source_example.
