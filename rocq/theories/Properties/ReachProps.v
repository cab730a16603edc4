(** C50: functions that SSA construction never fails on, and one more kind that it does. *)
From Coq Require Import String.
From Verif.Mid Require Import Graph Insn AllocSpec Ssa SsaSpec SsaOnce SsaCheck SsaReach CfgProofs OrderProofs DomProofs DomOrder SsaTree.
From Verif.Front Require Import StmtEval StmtExec StmtShape.
From Verif.Front Require ReachShape.
From Verif.Properties Require Import StmtProps SsaProps SsaFormProps SsaSourceProps.
Open Scope Z_scope.

Section Source.
  Variable F : pst.
  Lemma edge_slot a c : In c (succs (graph_of F) a) <-> exists t, ReachShape.g_slot (ReachShape.gr F) a t = Some c.
  Proof.
    unfold succs. cbn. rewrite !in_app_iff. unfold opt_list. split.
    - intros [H|[H|H]]; [exists NEXT|exists THEN|exists ELSE]; cbn; [destruct (p_next F a)|destruct (p_then F a)|destruct (p_else F a)]; try destruct H as [<-|[]]; try destruct H; reflexivity.
    - intros [t H]. destruct t; cbn in H; rewrite H; cbn; auto.
  Qed.
  Lemma rch_reach b : ReachShape.rch (ReachShape.gr F) b -> reach (succs (graph_of F)) 0 b.
  Proof. intros H. induction H as [|a t c R IH E]; [apply reach_refl|]. eapply reach_step; [exact IH|]. apply edge_slot. exists t. exact E. Qed.
End Source.

(** Whatever the tokens are, as long as none of them is for, do or ?: every block of the function that leads anywhere can be
    reached from its entry, and the phase that computes dominance frontiers succeeds.
    Missing: for, do and ?:, for which it is false in general (C50_for_refuted, C50_do_refuted, C50_conditional_refuted). *)
Theorem C50_no_null_partial : forall find_constant find_global find_type find_func special lim params k ts nvars ts' F e fuel n,
  let R := reach (succs (graph_of F)) 0 in
  (forall t w, In (t, w) ts -> t <> T_for /\ t <> T_do /\ t <> T_question) ->
  (forall x v, find_global x = Some v -> (vi_id v < nvars)%nat) -> (forall p, In p params -> (vi_id (snd p) < nvars)%nat) ->
  read_func_body find_constant find_global find_type find_func special lim params k ts nvars = Some (ts', F, e) ->
  (2 * p_blk F < fuel)%nat -> (p_blk F * (p_blk F + 1) < n)%nat ->
  (forall a b, In b (succs (graph_of F) a) -> R a) /\
  exists v vis o T, build_rpo fuel (graph_of F) 0 0 (fun _ => 0) (mkorder (fun _ => 0) (fun _ => None) 0) = Some (v, vis, o) /\
    build_idom fuel n (graph_of F) o 0 (fun _ => None) = Some T /\
    forall v2 vis2, (forall x, R x -> vis2 x = v2) -> exists r, build_df fuel (graph_of F) T 0 v2 vis2 (fun _ => []) = Some r.
Proof.
  intros fc fg ft ff special lim params k ts nvars ts' F e fuel n R C Hg Hp H F1 F2.
  assert (U : forall a b, In b (succs (graph_of F) a) -> R a).
  { intros a b J. apply edge_slot in J as [t J]. apply rch_reach. eapply ReachShape.func_reach; [exact C|exact H|exact J]. }
  split; [exact U|]. destruct (func_inv fc fg ft ff special lim params k ts nvars ts' F e Hg Hp H) as [I _].
  destruct (C50_null_iff (graph_of F) 0%nat (List.seq 0 (p_blk F)) fuel n (source_agree F I) (source_reach F I)) as (v & vis & o & T & E1 & E2 & E3); [rewrite seq_length; exact F1|rewrite seq_length; exact F2|].
  exists v, vis, o, T. split; [exact E1|]. split; [exact E2|]. intros v2 vis2 Hv. apply (E3 v2 vis2 Hv). intros b p Rb Jp. apply (source_preds F) in Jp as [_ Jp]. eapply U. exact Jp.
Qed.
Print Assumptions C50_no_null_partial.

(** { return n ? n && total : 0; } : the first block of n && total leads on, but nothing leads to it *)
Definition cond_and : stmt := StmtProps.seq [SReturn (Some (RCond (v "n") (RBin LAnd (v "n") (v "total")) zero))].
(** { return n ? (n ? total : 1) : 0; } *)
Definition cond_cond : stmt := StmtProps.seq [SReturn (Some (RCond (v "n") (RPar (RCond (v "n") (v "total") (num "1"))) zero))].
Theorem C50_conditional_refuted : fatal cond_and /\ fatal cond_cond.
Proof. split; (apply fatal_check; [unfold cond_and, cond_cond; literals|vm_compute; reflexivity]). Qed.
Print Assumptions C50_conditional_refuted.
Lemma cond_source : match demo_interp cond_and 0 (fun _ => 0), demo_interp cond_cond 0 (fun _ => 0) with
  | Some (OReturn (Some x), _, _), Some (OReturn (Some y), _, _) => (x =? 0) && (y =? 0) | _, _ => false end = true.
Proof. vm_compute. reflexivity. Qed.
Theorem C50_conditional_programs_meaning :
  (exists w', demo_exec cond_and 0 (fun _ => 0) (OReturn (Some 0)) w') /\ (exists w', demo_exec cond_cond 0 (fun _ => 0) (OReturn (Some 0)) w').
Proof.
  pose proof cond_source as Q. destruct (demo_interp cond_and 0 (fun _ => 0)) as [[[o1 E1] w1]|] eqn:Q1; [|discriminate Q]. destruct o1 as [| | |[x|]]; try discriminate Q.
  destruct (demo_interp cond_cond 0 (fun _ => 0)) as [[[o2 E2] w2]|] eqn:Q2; [|discriminate Q]. destruct o2 as [| | |[y|]]; try discriminate Q.
  apply andb_true_iff in Q as [Qx Qy]. apply Z.eqb_eq in Qx, Qy. subst x y. split; eexists; eapply demo_interp_ok; eassumption.
Qed.
Print Assumptions C50_conditional_programs_meaning.

(** a function the theorem is about, with jumps out of nested loops and && and || in conditions:
    { while (n < 3 || total) { if (n && total) break; if (!n) continue; while (n) return n; } return 0; } *)
Definition loops_prog : stmt := StmtProps.seq
  [SWhile (RBin LOr (RBin BLt (v "n") (num "3")) (v "total")) (SBlock (StmtProps.seq
     [SIf (RBin LAnd (v "n") (v "total")) SBreak; SIf (RUn UNot (v "n")) SContinue; SWhile (v "n") (SReturn (Some (v "n")))]));
   SReturn (Some zero)].
Theorem C50_no_null_example : sgram true loops_prog /\ exists ts F e, demo_read loops_prog = Some (ts, F, e) /\ (20 < p_blk F)%nat /\
  forall a b, In b (succs (graph_of F) a) -> reach (succs (graph_of F)) 0 a.
Proof.
  split; [unfold loops_prog; literals|]. destruct (demo_read loops_prog) as [[[ts F] e]|] eqn:E.
  2:{ exfalso. assert (Q : match demo_read loops_prog with Some _ => true | None => false end = true) by (vm_compute; reflexivity). rewrite E in Q. discriminate Q. }
  assert (B : match demo_read loops_prog with Some (_, F, _) => Nat.ltb 20 (p_blk F) | None => false end = true) by (vm_compute; reflexivity). rewrite E in B. apply Nat.ltb_lt in B.
  exists ts, F, e. split; [reflexivity|]. split; [exact B|].
  assert (Hg : forall x v, demo_global x = Some v -> (vi_id v < 2)%nat) by (intros x v; unfold demo_global; destruct (is x "total"); [intros Q; injection Q as <-; cbn; lia|discriminate]).
  assert (Hp : forall p0, In p0 demo_params -> (vi_id (snd p0) < 2)%nat) by (intros p0 [<-|[]]; cbn; lia).
  eapply (C50_no_null_partial demo_constant demo_global demo_type demo_func demo_special 1000 demo_params 200 _ 2 ts F e (S (2 * p_blk F)) (S (p_blk F * (p_blk F + 1)))); [|exact Hg|exact Hp|exact E|lia|lia].
  intros t w J. apply (proj1 (forallb_forall (fun p => negb (token_eqb (fst p) T_for || token_eqb (fst p) T_do || token_eqb (fst p) T_question)) _)) with (x := (t, w)) in J; [|vm_compute; reflexivity].
  repeat split; intros ->; discriminate J.
Qed.
Print Assumptions C50_no_null_example.
