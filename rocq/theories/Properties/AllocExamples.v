(** C40: the example function of AllocProps runs and is allocated; a function for which the allocator goes wrong. *)
From Verif.Mid Require Import Insn Graph LiveSpec Alloc AllocSpec AllocRoom.
From Verif.Properties Require Import AllocProps.
From Coq Require Import ZArith List Lia.
Import ListNotations.
Local Open Scope Z_scope.

(** An interpreter for the code before allocation, to run examples; sound for [sruns]. *)
Section Eval.
  Context {val world : Type}.
  Variable M : meaning val world.
  Variable V : vars.
  Variable goff : nat -> Z.
  Variable place : nat -> val.
  Variable calls : Z -> list val -> world -> option (world * val).
  Variable callsi : val -> list val -> world -> option (world * val).
  Hypothesis calls_ok : forall f l w w' r, calls f l w = Some (w', r) -> forall A, passes l A -> exists A', m_call M f A w = Some (w', A') /\ A' 0%nat = r.
  Hypothesis callsi_ok : forall f l w w' r, callsi f l w = Some (w', r) -> forall A, passes l A -> exists A', m_calli M f A w = Some (w', A') /\ A' 0%nat = r.
  Definition bind {A B} (o : option A) (f : A -> option B) : option B := match o with Some x => f x | None => None end.
  Definition no_args (s : @senv val world) : bool := match s_args s with [] => true | _ => false end.
  Definition estep (i : rinsn) (s : @senv val world) : option (@senv val world) :=
    let n := r_insn i in
    if no_args s then
      match i_op n, i_rd n, i_rs1 n, i_rs2 n with
      | OP_unwound_phi, Some d, Some x, _ => if v_global V d then None else set M V goff s d (get M V goff s x)
      | OP_allocat, Some d, _, _ => if v_global V d then None else set M V goff s d (if no_storage V d then None else Some (place d))
      | OP_load_constant, Some d, _, _ => set M V goff s d (Some (m_const M (v_init V d)))
      | OP_assign, Some d, Some x, _ => set M V goff s d (get M V goff s x)
      | OP_read, Some d, Some x, _ => bind (get M V goff s x) (fun a => bind (m_read M (r_sz i) a (s_world s)) (fun r => set M V goff s d (Some r)))
      | OP_write, _, Some x, Some y => match v_func V y with Some _ => None | None =>
          bind (get M V goff s x) (fun a => bind (get M V goff s y) (fun r => bind (m_write M (r_sz i) a r (s_world s)) (fun w => Some (mks (s_env s) w [] None)))) end
      | OP_push, _, Some x, _ => bind (get M V goff s x) (fun a => Some (mks (s_env s) (s_world s) (s_args s ++ [a]) None))
      | OP_call, _, _, _ => bind (calls (r_str i) (s_args s) (s_world s)) (fun p => Some (mks (s_env s) (fst p) [] (Some (snd p))))
      | OP_func_ret, Some d, _, _ => bind (s_ret s) (fun r => set M V goff s d (Some r))
      | o, Some d, Some x, Some y => if binary o then
          bind (get M V goff s x) (fun a => bind (get M V goff s y) (fun c => bind (m_alu2 M o a c) (fun r => set M V goff s d (Some r)))) else None
      | _, _, _, _ => None
      end
    else
      match i_op n, i_rs1 n with
      | OP_push, Some x => bind (get M V goff s x) (fun a => Some (mks (s_env s) (s_world s) (s_args s ++ [a]) None))
      | OP_call, _ => bind (calls (r_str i) (s_args s) (s_world s)) (fun p => Some (mks (s_env s) (fst p) [] (Some (snd p))))
      | OP_indirect, Some x => bind (get M V goff s x) (fun a => bind (callsi a (s_args s) (s_world s)) (fun p => Some (mks (s_env s) (fst p) [] (Some (snd p)))))
      | _, _ => None
      end.
  Ltac bnd := repeat match goal with H : bind ?o _ = Some _ |- _ => let E := fresh "E" in destruct o eqn:E; [cbn [bind] in H|discriminate H] end.
  Lemma estep_ok i s s' : estep i s = Some s' -> sstep M V goff place i s s'.
  Proof.
    destruct i as [[o d x y] sz str]. unfold estep. cbn [r_insn i_op i_rd i_rs1 i_rs2 r_sz r_str].
    destruct (no_args s) eqn:N.
    - assert (A : s_args s = []) by (unfold no_args in N; destruct (s_args s); [reflexivity|discriminate]).
      destruct o; try discriminate; destruct d as [d|]; try discriminate; destruct x as [x|]; try discriminate; try (destruct y as [y|]; try discriminate); intros H; cbn [binary] in H; bnd;
      try (destruct (v_global V d) eqn:Gd; [discriminate|]);
      try (destruct (no_storage V d) eqn:Nd);
      try (destruct (v_func V y) eqn:Fy; [discriminate|]; bnd);
      try (destruct p as [w' r']; cbn [fst snd] in H);
      first [ discriminate H
        | solve [eapply s_phi; eauto] | solve [eapply s_decl; eauto] | solve [eapply s_storage; eauto] | solve [eapply s_const; eauto] | solve [eapply s_assign; eauto]
        | solve [eapply s_read; eauto] | solve [injection H as <-; eapply s_write; eauto] | solve [injection H as <-; eapply s_push; eauto] | solve [injection H as <-; eapply s_call; intros; eapply calls_ok; eauto]
        | solve [eapply s_result; eauto] | solve [eapply s_binary; eauto] | idtac ].
    - destruct o; try discriminate; try (destruct x as [x|]; try discriminate); intros H; bnd; try (destruct p as [w' r']; cbn [fst snd] in H); injection H as <-;
      first [ solve [eapply s_push; eauto] | solve [eapply s_call; intros; eapply calls_ok; eauto] | solve [eapply s_calli; eauto] | idtac].
  Qed.
  Fixpoint eblock (l : list rinsn) (s : @senv val world) : option (send val world) :=
    match l with
    | [] => Some (SFall s)
    | i :: r =>
        match i_op (r_insn i), i_rs1 (r_insn i) with
        | OP_branch, Some x => if no_args s then bind (get M V goff s x) (fun a => Some (SBranch a s)) else None
        | OP_return, Some x => if no_args s then bind (get M V goff s x) (fun a => Some (SRet (Some a) (s_world s))) else None
        | _, _ => bind (estep i s) (eblock r)
        end
    end.
  Lemma eblock_ok l : forall s e, eblock l s = Some e -> sblock M V goff place l s e.
  Proof.
    induction l as [|i l IH]; cbn [eblock]; intros s e H; [injection H as <-; constructor|].
    assert (G : bind (estep i s) (eblock l) = Some e -> sblock M V goff place (i :: l) s e).
    { destruct (estep i s) as [s'|] eqn:E; [|discriminate]. cbn. intros Q. eapply sb_cons; [apply estep_ok; exact E|auto]. }
    destruct i as [[o d x y] sz str]. cbn [r_insn i_op i_rs1] in *. destruct o; try (exact (G H)); destruct x as [x|]; try (exact (G H)).
    - destruct (no_args s) eqn:N; [|discriminate]. destruct (get M V goff s x) eqn:E; [|discriminate]. injection H as <-. constructor; auto. unfold no_args in N. destruct (s_args s); [reflexivity|discriminate].
    - destruct (no_args s) eqn:N; [|discriminate]. destruct (get M V goff s x) eqn:E; [|discriminate]. injection H as <-. constructor; auto. unfold no_args in N. destruct (s_args s); [reflexivity|discriminate].
  Qed.
  Variable code : nat -> list rinsn.
  Variables next then_ else_ : nat -> option nat.
  Variable exit : nat.
  Variable void : bool.
  Fixpoint erun (fuel : nat) (b : nat) (s : @senv val world) : option (world * option val) :=
    match fuel with
    | O => None
    | S f => match eblock (code b) s with
             | Some (SRet r w) => Some (w, r)
             | Some (SFall s') => bind (next b) (fun c => if Nat.eqb c exit then None else erun f c (mks (s_env s') (s_world s') [] None))
             | Some (SBranch x s') => bind (then_ b) (fun t => bind (else_ b) (fun e => erun f (if m_truth M x then t else e) (mks (s_env s') (s_world s') [] None)))
             | None => None
             end
    end.
  Lemma erun_ok fuel : forall b s w r, erun fuel b s = Some (w, r) -> sruns M V goff place code next then_ else_ exit void b s w r.
  Proof.
    induction fuel as [|f IH]; [discriminate|]. cbn [erun]. intros b s w r H. destruct (eblock (code b) s) as [[s'|x s'|x w']|] eqn:E; [| | |discriminate]; apply eblock_ok in E.
    - destruct (next b) as [c|] eqn:En; [|discriminate]. cbn [bind] in H. destruct (Nat.eqb c exit) eqn:Ec; [discriminate|]. apply Nat.eqb_neq in Ec. eapply sr_next; eauto.
    - destruct (then_ b) eqn:Et; [|discriminate]. destruct (else_ b) eqn:Ee; [|discriminate]. cbn [bind] in H. eapply sr_branch; eauto.
    - injection H as <- <-. eapply sr_return; eauto.
  Qed.
End Eval.

(** The example of AllocProps: with n = 2 the loop runs twice, s = 8, f adds its arguments 8 and 5. *)
Definition x_vars (v : nat) : option Z := match v with 0%nat => Some 2 | _ => None end.
Definition x_calls (f : Z) (l : list Z) (w : x_world) : option (x_world * Z) := match l with [a; b] => Some (w, a + b) | _ => None end.
Lemma x_calls_ok f l w w' r : x_calls f l w = Some (w', r) -> forall A, passes l A -> exists A', m_call x_M f A w = Some (w', A') /\ A' 0%nat = r.
Proof.
  intros H A P. destruct l as [|a [|b [|? ?]]]; try discriminate. injection H as <- <-. eexists. split; [reflexivity|].
  cbv beta. rewrite (P 0%nat a eq_refl), (P 1%nat b eq_refl). reflexivity.
Qed.

Definition x_vs (b : nat) : list nat :=
  match b with 0 => [0; 1; 2; 3; 9] | 1 => [3] | 2 => [2; 3; 4; 5; 6] | 3 => [2; 7; 8; 9; 10] | _ => [] end%nat.
Lemma x_allocated : exists prog sF, x_alloc = Some (prog, sF) /\ a_off sF 9%nat = 4.
Proof.
  assert (Q : match x_alloc with Some (_, s) => a_off s 9%nat = 4 | None => False end) by (vm_compute; reflexivity).
  destruct x_alloc as [[prog sF]|]; [|destruct Q]. exists prog, sF. split; [reflexivity|exact Q].
Qed.
Lemma x_evaluates (w0 : Z -> Z) (a : nat -> Z) : a 9%nat = 4 ->
  match erun x_M x_V x_goff (fun d => m_frame x_M (a d + 4)) x_calls (fun _ _ _ => None) x_code (g_next x_g) (g_then x_g) (g_else x_g) 4 8 0 (mks x_vars (w0, 0) [] None) with
  | Some (w, r) => r = Some 13 /\ snd w = 13 | None => False end.
Proof. intros Ha. set (c := a 9%nat) in *. vm_compute. subst c. rewrite ?Ha. vm_compute. auto. Qed.
Lemma x_hyps : (forall v, v_global x_V v = true -> x_goff v <> 0) /\ separate_globals x_M x_V x_goff /\
  (forall b, In b x_order -> (In b [3]%nat <-> In 4%nat (succs x_g b))) /\
  (forall v, v_global x_V v = false -> a_off x_s v = 0) /\ (forall v, v_global x_V v = true -> a_off x_s v = x_goff v) /\
  (forall b i v, In b x_order -> In i (plain_code x_code b) -> i_rd i = Some v \/ i_rs1 i = Some v \/ i_rs2 i = Some v -> In v (x_vs b)) /\
  (forall b, In b x_order -> (length (x_vs b) + most_args 0 (x_code b) <= 8)%nat) /\
  (forall b i, In b x_order -> In i (plain_code x_code b) -> i_op i <> OP_indirect).
Proof.
  split; [intros v _; discriminate|]. split; [|split; [|split; [|split; [|split; [|split]]]]].
  - split; [reflexivity|]. intros u v w1 x Gu Gv N. change (Nat.eqb 8 u = true) in Gu. change (Nat.eqb 8 v = true) in Gv. apply Nat.eqb_eq in Gu, Gv. congruence.
  - intros b Hb. unfold x_order in Hb. each; cbn; intuition (try discriminate; try lia).
  - intros v Gv. change (Nat.eqb 8 v = false) in Gv. change ((if Nat.eqb 8 v then 8 else 0) = 0). rewrite Gv. reflexivity.
  - intros v Gv. change (Nat.eqb 8 v = true) in Gv. change ((if Nat.eqb 8 v then 8 else 0) = 8). rewrite Gv. reflexivity.
  - intros b i v Hb I H. unfold x_order in Hb. each; cbn in I; each; cbn in H; each; try discriminate; repeat match goal with Q : Some _ = Some _ |- _ => injection Q as <- end; cbn; tauto.
  - intros b Hb. unfold x_order in Hb. each; cbn; lia.
  - intros b i Hb I. unfold x_order in Hb. each; cbn in I; each; discriminate.
Qed.
Lemma x_use prog sF m w r : x_alloc = Some (prog, sF) -> t_reg m 0%nat = 2 ->
  sruns x_M x_V x_goff (fun d => m_frame x_M (a_off sF d + 4)) x_code (g_next x_g) (g_then x_g) (g_else x_g) 4 false 0 (mks x_vars (t_world m) [] None) w r -> mruns x_M prog 0 m w r.
Proof.
  intros Ea Hm R. destruct x_hyps as (H1 & H2 & H3 & H4 & H5 & H6 & H7 & H8).
  apply (C40_few_variables_partial x_M x_V x_g x_code 0 4 [0]%nat x_order (fun b => Z.of_nat b) x_live x_kill x_cons x_arity x_goff false [3]%nat x_s prog sF x_vs
    x_allocatable H1 H2 H3 H4 H5 eq_refl (fun _ => eq_refl) H6 ltac:(intros v [<-|[]]; cbn; tauto) H7 H8 Ea x_vars m w r); [|exact R].
  intros v a Hv. destruct v; [|discriminate]. injection Hv as <-. exists 0%nat. split; [reflexivity|exact Hm].
Qed.
Lemma x_run (w0 : Z -> Z) (sF : ra) : a_off sF 9%nat = 4 -> exists w, snd w = 13 /\
  sruns x_M x_V x_goff (fun d => m_frame x_M (a_off sF d + 4)) x_code (g_next x_g) (g_then x_g) (g_else x_g) 4 false 0 (mks x_vars (w0, 0) [] None) w (Some 13).
Proof.
  intros OF. assert (E := x_evaluates w0 (a_off sF) OF).
  destruct (erun x_M x_V x_goff (fun d => m_frame x_M (a_off sF d + 4)) x_calls (fun _ _ _ => None) x_code (g_next x_g) (g_then x_g) (g_else x_g) 4 8 0 (mks x_vars (w0, 0) [] None)) as [[w r]|] eqn:Eo; [|destruct E]. destruct E as [-> E].
  exists w. split; [exact E|]. eapply erun_ok in Eo; [exact Eo|apply x_calls_ok|discriminate].
Qed.
(** all hypotheses of C40_few_variables_partial, hence of C40_allocation_partial, hold of it *)
Theorem C40_example (w0 : Z -> Z) (junk : nat -> Z) (slots : Z -> Z) : exists prog sF w,
  x_alloc = Some (prog, sF) /\ snd w = 13 /\
  sruns x_M x_V x_goff (fun d => m_frame x_M (a_off sF d + 4)) x_code (g_next x_g) (g_then x_g) (g_else x_g) 4 false 0 (mks x_vars (w0, 0) [] None) w (Some 13) /\
  mruns x_M prog 0 (mkm (fun i => match i with 0%nat => 2 | _ => junk i end) slots (w0, 0) None) w (Some 13).
Proof.
  destruct x_allocated as (prog & sF & Ea & OF). destruct (x_run w0 sF OF) as (w & E & R). exists prog, sF, w.
  split; [exact Ea|]. split; [exact E|]. split; [exact R|]. apply (x_use prog sF); [exact Ea|reflexivity|exact R].
Qed.
Print Assumptions C40_example.

(** ** The allocator goes wrong.
      int f(int a, int b, int c, int d, int e, int f, int g, int h) { int z = 5; return z + a + b + c + d + e + f + g + h + z + a; }
    a to h 0 to 7, z 8, partial sums 9 to 18.  The eight parameters fill the registers; z takes that of a; then "z + a" needs a
    register for a, and the one whose variable is used last is that of z: the code adds a to itself. *)
Definition c_code (b : nat) : list rinsn :=
  match b with
  | 0%nat => xi OP_load_constant (Some 8%nat) None None :: xi OP_add (Some 9%nat) (Some 8%nat) (Some 0%nat) ::
             map (fun k => xi OP_add (Some (9 + k)%nat) (Some (8 + k)%nat) (Some k)) [1; 2; 3; 4; 5; 6; 7; 8]%nat ++
             [xi OP_add (Some 18%nat) (Some 17%nat) (Some 0%nat); xi OP_return None (Some 18%nat) None]
  | _ => []
  end.
Definition c_next (b : nat) : option nat := match b with 0 => Some 1 | _ => None end%nat.
Definition c_g : cfg := mkcfg c_next (fun _ => None) (fun _ => None) (fun _ => []).
Definition c_V : vars := mkvars (fun _ => false) (fun _ => None) (fun v => if Nat.eqb v 8 then 5 else 0) (fun _ => true) (fun _ => 0) (fun _ => false) (fun _ => 4).
Definition c_params : list nat := seq 0 8.
Definition c_order : list nat := [0; 1]%nat.
Definition c_cons (v : nat) : Z := nth v [10; 2; 3; 4; 5; 6; 7; 8; 9; 2; 3; 4; 5; 6; 7; 8; 9; 10; 11] (-1).
Definition c_s : ra := mkra (fun _ => None) (fun _ => false) (fun _ => 0) 4 c_cons [] false 0.
Notation c_alloc := (alloc_func c_V (fun _ => []) (fun _ _ => true) (fun _ => 0) (g_next c_g) (g_then c_g) (g_else c_g) (fun b => Z.of_nat b) 1 c_code [0]%nat false c_params false c_order c_s).
Lemma c_no v b : ~ needed (succs c_g) (plain_code c_code) v b.
Proof.
  intros N. induction N as [b c S E|b c S U N IH]; [|exact IH]. destruct b as [|b]; [|destruct S]. destruct S as [<-|[]]. destruct E as (l1 & i & l2 & E & _). destruct l1; discriminate.
Qed.
Lemma c_forgets i v : ~ (In i (plain_code c_code 0) /\ forgets c_V i v).
Proof. intros (I & _ & E2 & _). cbn in I. each; discriminate. Qed.
Lemma c_once l b : walk (succs c_g) 0%nat (l ++ [b]) b -> b = 0%nat -> l = [].
Proof.
  intros W ->. apply walk_last in W. destruct W as [[E _]|(l' & p & E & _ & S)].
  - destruct l as [|a [|? ?]]; [reflexivity|discriminate|discriminate].
  - destruct p; cbn in S; [destruct S as [S|[]]; discriminate|destruct S].
Qed.
Lemma c_allocatable : allocatable c_V c_g c_code 0 1 c_params c_order (fun b => Z.of_nat b) (fun _ => []) (fun _ _ => true) c_cons (fun _ => 0).
Proof.
  split.
  - eexists. reflexivity.
  - repeat constructor; cbn; intuition discriminate.
  - intros b c Hb Hc. unfold c_order in *. each; cbn in *; tauto.
  - intros l1 b l2 E. unfold c_order in E. do 2 (destruct l1 as [|? l1]; [injection E as E _; subst; first [left; reflexivity|right; eexists; split; [left; reflexivity|cbn; tauto]]|injection E as <- E]). destruct l1; discriminate.
  - intros l1 b c l2 E. unfold c_order in E. do 1 (destruct l1 as [|? l1]; [injection E as E E' _; subst; reflexivity|injection E as <- E]). destruct l1 as [|? [|? ?]]; discriminate.
  - intros b c _ _ E. lia.
  - intros b Hb Hc. unfold c_order in *. each; cbn in *; intuition discriminate.
  - intros b Hb Nx. unfold c_order in *. each; try contradiction. eapply shape_next; [reflexivity|reflexivity|reflexivity|intros i I; cbn in I; each; discriminate].
  - split; [reflexivity|]. split; [reflexivity|discriminate].
  - intros b v Hb Gv N. destruct (c_no v b N).
  - intros b k i v Hb E R. unfold c_order in Hb. each; unfold plain_code in E; cbn in E; repeat (destruct k as [|k]; [cbn in E; injection E as <-; destruct R as [R|R]; cbn in R; try discriminate; injection R as <-; cbn; lia|cbn in E]); try discriminate; destruct k; discriminate.
  - reflexivity.
  - reflexivity.
  - split; [apply seq_NoDup|]. split; [cbn; lia|]. reflexivity.
  - intros b k i v Hb E R Gv. left. intros l W. unfold c_order in Hb. destruct Hb as [<-|[<-|[]]].
    + rewrite (c_once l _ W eq_refl). change (flat_map (plain_code c_code) [] ++ firstn k (plain_code c_code 0)) with (firstn k (plain_code c_code 0)).
      assert (Q : existsb (fun j => match i_rd j with Some d => Nat.eqb d v | None => false end) (firstn k (plain_code c_code 0)) = true \/ In v c_params).
      { unfold plain_code in E; cbn in E; repeat (destruct k as [|k]; [cbn in E; injection E as <-; destruct R as [R|R]; cbn in R; try discriminate; injection R as <-; first [left; reflexivity|right; cbn; tauto]|cbn in E]); destruct k; discriminate. }
      assert (FG : forall j, In j (firstn k (plain_code c_code 0)) -> ~ forgets c_V j v).
      { intros j J F. apply (c_forgets j v). split; [|exact F]. rewrite <- (firstn_skipn k). apply in_or_app. left. exact J. }
      destruct Q as [Q|Q]; [left|right; split; assumption]. apply existsb_exists in Q. destruct Q as (j & J & Ej). destruct (i_rd j) as [d|] eqn:Ed; [|discriminate]. apply Nat.eqb_eq in Ej. subst d.
      assert (J' := J). apply in_split in J'. destruct J' as (t1 & t2 & Et). exists t1, j, t2. split; [exact Et|]. split.
      * split; [exact Ed|]. intros Q. apply (FG j J). split; [exact Ed|exact Q].
      * intros j' J'. apply FG. rewrite Et. apply in_or_app. right. right. exact J'.
    + destruct k; discriminate.
  - discriminate.
  - intros b i Hb I E. unfold c_order in Hb. each; cbn in I; each; try reflexivity; cbn in E; each; discriminate.
  - intros b i v Hb I E. unfold c_order in Hb. each; cbn in I; each; discriminate.
  - intros b i d Hb I E Eo NS. discriminate.
  - intros b l1 i l2 d Hb E Eo Ed. exfalso. assert (I : In i (plain_code c_code b)) by (rewrite E; apply in_or_app; right; left; reflexivity). unfold c_order in Hb. each; cbn in I; each; discriminate.
  - intros b k i Hb E Eo. exfalso. apply nth_error_In in E. unfold c_order in Hb. each; cbn in E; each; discriminate.
  - left. reflexivity.
  - intros b l1 l2 l3 i v Hb E Eo. exfalso. assert (I : In i (plain_code c_code b)) by (rewrite E; apply in_or_app; right; apply in_or_app; right; left; reflexivity).
    unfold c_order in Hb. each; cbn in I; each; discriminate.
  - discriminate.
  - intros b i v Hb I Eo Ed Es. unfold c_order in Hb. each; cbn in I; each; discriminate.
Qed.
Lemma one_block {val world} (M : meaning val world) a c la lc m r w r' w' : a <> c ->
  mblock M la m = Some (MRet r w) -> mruns M [(a, la); (c, lc)] a m w' r' -> w' = w /\ r' = r.
Proof.
  intros N E R. inversion R as [l1 b l l2 m0 w0 r0 E1 E2|l1 b l l2 m0 c0 m' w0 r0 E1 E2 _|l1 b l c0 l' l2 m0 m' w0 r0 E1 E2 _]; subst;
    (destruct l1 as [|p1 [|p2 [|p3 l1]]]; [injection E1 as <-|injection E1 as _ E1; exfalso; auto|exfalso; discriminate|exfalso; discriminate]); try (rewrite E in E2; discriminate).
  - rewrite E in E2. injection E2 as -> ->. auto.
Qed.
Definition c_la : list ph2 := Eval vm_compute in match c_alloc with Some ((_, la) :: _, _) => la | _ => [] end.
Lemma c_allocated : exists sF, c_alloc = Some ([(0%nat, c_la); (1%nat, [])], sF).
Proof.
  assert (Q : match c_alloc with Some (p, _) => p = [(0%nat, c_la); (1%nat, [])] | None => False end) by (vm_compute; reflexivity).
  destruct c_alloc as [[prog sF]|]; [|destruct Q]. subst prog. exists sF. reflexivity.
Qed.
(* 1 in register 0, 0 in the seven next, anything elsewhere *)
Definition c_regs (junk : nat -> Z) (i : nat) : Z := if (i <? 8)%nat then if Nat.eqb i 0 then 1 else 0 else junk i.
Lemma c_result junk slots w latch : mblock x_M c_la (mkm (c_regs junk) slots w latch) = Some (MRet (Some 8) w).
Proof. vm_compute. destruct w. reflexivity. Qed.
Definition c_vars (v : nat) : option Z := if (v <? 8)%nat then Some (if Nat.eqb v 0 then 1 else 0) else None.
(** the function has the required form; f(1,0,0,0,0,0,0,0) is 12, but the code returns 8 *)
Theorem C40_clash_refuted :
  allocatable c_V c_g c_code 0 1 c_params c_order (fun b => Z.of_nat b) (fun _ => []) (fun _ _ => true) c_cons (fun _ => 0) /\
  exists prog sF, c_alloc = Some (prog, sF) /\
  (forall w place, sruns x_M c_V x_goff place c_code (g_next c_g) (g_then c_g) (g_else c_g) 1 false 0 (mks c_vars w [] None) w (Some 12)) /\
  forall junk slots w0 latch w r, mruns x_M prog 0 (mkm (c_regs junk) slots w0 latch) w r -> r = Some 8.
Proof.
  split; [exact c_allocatable|].
  destruct c_allocated as [sF EA].
  exists [(0%nat, c_la); (1%nat, [])], sF. split; [exact EA|]. split.
  - intros w place. eapply (erun_ok x_M c_V x_goff place x_calls (fun _ _ _ => None) x_calls_ok ltac:(discriminate) c_code _ _ _ 1 false 2). vm_compute. reflexivity.
  - intros junk slots w0 latch w r R. eapply one_block in R; [|discriminate|apply c_result]. apply R.
Qed.
Print Assumptions C40_clash_refuted.

(** ** A variable passed through a function pointer and used afterwards (excluded by v_indirect).
      int g(int x, int ( *fp)()) { int y = fp(x); return x + y; }      x 0, fp 1, y 2, the sum 3
    After OP_indirect the allocator still believes x to be in register 0, which now has the result. *)
Definition i_code (b : nat) : list rinsn :=
  match b with
  | 0%nat => [xp 0 1; xi OP_indirect None (Some 1%nat) None; xi OP_func_ret (Some 2%nat) None None; xi OP_add (Some 3%nat) (Some 0%nat) (Some 2%nat); xi OP_return None (Some 3%nat) None]
  | _ => []
  end.
Definition i_cons (v : nat) : Z := nth v [3; 1; 3; 4] (-1).
Definition i_s : ra := mkra (fun _ => None) (fun _ => false) (fun _ => 0) 4 i_cons [] false 0.
Notation i_alloc := (alloc_func c_V (fun _ => []) (fun _ _ => true) (fun _ => 0) (g_next c_g) (g_then c_g) (g_else c_g) (fun b => Z.of_nat b) 1 i_code [0]%nat false [0; 1]%nat false c_order i_s).
(* every function gives its argument plus 100, and leaves it in all registers *)
Definition i_M : meaning Z x_world :=
  mkmeaning Z x_world (m_truth x_M) (m_const x_M) (m_data x_M) (m_frame x_M) (m_gaddr x_M) (m_alu1 x_M) (m_alu2 x_M) (m_read x_M) (m_write x_M) (m_writef x_M)
    (m_call x_M) (fun _ A w => Some (w, fun _ => A 0%nat + 100)) (m_gget x_M) (m_gput x_M).
Definition i_calls (f : Z) (l : list Z) (w : x_world) : option (x_world * Z) := match l with [a] => Some (w, a + 100) | _ => None end.
Lemma i_calls_ok f l w w' r : i_calls f l w = Some (w', r) -> forall A, passes l A -> exists A', m_calli i_M f A w = Some (w', A') /\ A' 0%nat = r.
Proof. intros H A P. destruct l as [|a [|? ?]]; try discriminate. injection H as <- <-. eexists. split; [reflexivity|]. cbv beta. rewrite (P 0%nat a eq_refl). reflexivity. Qed.
Definition i_la : list ph2 := Eval vm_compute in match i_alloc with Some ((_, la) :: _, _) => la | _ => [] end.
Definition i_regs (junk : nat -> Z) (i : nat) : Z := match i with 0%nat => 1 | 1%nat => 77 | _ => junk i end.
(** with x = 1: 1 + 101 = 102, but the code returns 101 + 101 = 202 *)
Theorem C40_indirect_refuted : exists prog sF, i_alloc = Some (prog, sF) /\
  (forall w place, sruns i_M c_V x_goff place i_code (g_next c_g) (g_then c_g) (g_else c_g) 1 false 0
     (mks (fun v => match v with 0%nat => Some 1 | 1%nat => Some 77 | _ => None end) w [] None) w (Some 102)) /\
  forall junk slots w0 latch w r, mruns i_M prog 0 (mkm (i_regs junk) slots w0 latch) w r -> r = Some 202.
Proof.
  assert (A : exists sF, i_alloc = Some ([(0%nat, i_la); (1%nat, [])], sF)).
  { assert (Q : match i_alloc with Some (p, _) => p = [(0%nat, i_la); (1%nat, [])] | None => False end) by (vm_compute; reflexivity).
    destruct i_alloc as [[prog sF]|]; [|destruct Q]. subst prog. exists sF. reflexivity. }
  destruct A as [sF EA]. exists [(0%nat, i_la); (1%nat, [])], sF. split; [exact EA|]. split.
  - intros w place. eapply (erun_ok i_M c_V x_goff place (fun _ _ _ => None) i_calls ltac:(discriminate) i_calls_ok i_code _ _ _ 1 false 2). vm_compute. reflexivity.
  - intros junk slots w0 latch w r R. eapply one_block in R; [|discriminate|vm_compute; reflexivity]. apply R.
Qed.
Print Assumptions C40_indirect_refuted.
