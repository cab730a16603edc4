(** C32: expressions are evaluated as C says, with its precedences, associativity, short circuits and calls, whatever their
    length, nesting and values.  The code read_return produces for "return e;" is run by the semantics of AllocSpec.v; the
    specification is ExprSpec.v. *)
From Coq Require Import String.
From Verif.Front Require Import LexSpec ExprEval.
Open Scope Z_scope.

(** st, b: the function so far and its current block, where [s] has been reached; F: the finished function, which has the
    blocks the reader made as it left them (later statements go to later blocks, a return ends its block).  V: the variables
    of the finished function. *)
Theorem C32_return_partial :
  forall find_constant find_var find_func special lim {world : Type} (M : meaning Z world) V goff place exit void
         e n rest st b ts' st' F,
  c_like M ->
  (* the declared variables came before, and are not confused with globals *)
  (forall x v, find_var x = Some v -> 0 <= vi_ptr v /\ (v_global V (vi_id v) = false -> (vi_id v < p_var st)%nat)) ->
  (* the state is one of a function being compiled *)
  (b < p_blk st)%nat -> (exit < p_blk st)%nat -> (forall c, (p_blk st <= c)%nat -> empty st c) ->
  (* e is an expression of C, of the forms that are supported *)
  rgram 3 e ->
  fine (is_constant find_constant) (is_pointer find_var) (is_variable find_var) special e = true ->
  settled (is_constant find_constant) (is_global find_var V) e = true ->
  (* "return e;" is accepted *)
  read_return find_constant find_var find_func special lim n exit (rtokens e ++ (T_semicolon, []) :: rest) st b = Some (ts', st') ->
  (forall c, c = b \/ (p_blk st <= c < p_blk st')%nat -> same c st' F) ->
  (forall v, (p_var st <= v)%nat -> v_global V v = false) ->
  (forall v, (p_var st <= v < p_var st')%nat -> p_init F v = p_init st' v) ->
  (forall v, (p_var st <= v)%nat -> v_init V v = p_init F v) ->
  (* the reader stops behind the semicolon, *)
  ts' = rest /\
  (* and wherever C gives e the value x, the code returns x and leaves the same world *)
  forall s0 s x w, steps M V goff place (p_code st b) s0 s -> s_args s = [] ->
    ceval (lookup find_constant find_var V M goff (s_env s)) (element_size find_var) (m_read M) (do_call find_func M) e (s_world s) x w ->
    sruns M V goff place (p_code F) (p_next F) (p_then F) (p_else F) exit void b s0 w (Some x).
Proof.
  intros fc fv ff special lim world M V goff place exit void e n rest st b ts' st' F HM Hv Lb Lx Em Ge Fe Se H HF Hg Hi HV.
  unfold read_return in H.
  destruct (read_expr _ _ _ _ _ n _ st b) as [[[ts1 st1] b1]|] eqn:E1; [|discriminate].
  destruct (read_ternary _ _ _ _ _ n ts1 st1 b1) as [[[ts2 st2] b2]|] eqn:E2; [|discriminate].
  assert (W : wf exit (p_var st) st b) by (constructor; auto).
  assert (D : forall e0, ts2 = (T_semicolon, []) :: rest /\ did fc fv ff M V goff place exit void F (p_var st) e0 e [b] st b st2 b2).
  { intros e0.
    assert (OK : opOK fc fv ff lim M V goff place exit void F (p_var st) e0 special n).
    { apply operands; auto; [intros y v Q; apply (Hv _ _ Q)|intros y v Q G; apply (proj2 (Hv _ _ Q) G)]. }
    apply (full_ok fc fv ff lim M V goff place exit void F (p_var st) e0 HV Hg HM special n OK e n n _ st b ts1 st1 b1 ts2 st2 b2); auto; repeat split; reflexivity. }
  destruct (D (fun _ => None)) as [-> _]. change (lex_expect T_semicolon ((T_semicolon, @nil Z) :: rest)) with (Some rest) in H. cbn iota in H.
  destruct (opstack_pop st2) as [[v st3]|] eqn:E3; [|discriminate].
  destruct (bb_connect b2 exit NEXT _) as [st4|] eqn:E4; [|discriminate]. apply some_inj in H. injection H as <- <-. split; [reflexivity|].
  intros s0 s x w Pre Hs Ec. destruct (D (s_env s)) as (_ & Fr & _ & v' & Sv & R & Ev).
  unfold opstack_pop in E3. rewrite Sv in E3. apply some_inj in E3. injection E3 as <- <-.
  unfold bb_connect, add_insn, set_stack in E4. cbn [p_var p_blk p_code p_next p_then p_else p_pred p_init p_stack] in E4. destruct (_ <? _)%nat; [|discriminate]. apply some_inj in E4. subst st4.
  cbn [p_blk p_var p_init] in HF, Hi. pose proof (fr_cur _ _ _ _ _ Fr) as Cu. pose proof (fr_lt _ _ _ _ _ Fr Lb) as Lb2.
  assert (C2 : p_code F b2 = p_code st2 b2 ++ [mkr (mkinsn OP_return None (Some v') None) 0 0]).
  { destruct (HF b2) as (Q & _); [lia|]. rewrite Q. cbn. unfold upd. rewrite Nat.eqb_refl. reflexivity. }
  destruct (Ev) with (s := s) (x := x) (w' := w) as (s' & Ll & Af & Gv); auto.
  - constructor.
    + intros u Hu. apply Hi. exact Hu.
    + intros c _ Hc [[<-|[]]|Hin]; (eapply same_trans; [|apply HF; auto]); repeat split; cbn; unfold upd; rewrite (proj2 (Nat.eqb_neq _ _)) by congruence; reflexivity.
    + rewrite C2. eexists. reflexivity.
  - intros u _. reflexivity.
  - apply (tail_run M V goff place exit void F). destruct (fr_pre _ _ _ _ _ Fr b Lb) as [l2 Q2].
    assert (Q3 : exists l3, p_code F b = p_code st b ++ l3).
    { destruct (Nat.eq_dec b b2) as [->|N].
      - rewrite C2, Q2, <- app_assoc. eexists. reflexivity.
      - destruct (HF b) as (Q & _); [auto|]. rewrite Q. cbn. unfold upd. rewrite (proj2 (Nat.eqb_neq _ _)) by congruence. rewrite Q2. eexists. reflexivity. }
    destruct Q3 as [l3 Q3]. pose proof (leads_steps M V goff place exit void F b [] (p_code st b) l3 s0 s Q3 Pre) as L0. cbn [List.app length] in L0.
    apply L0. apply Ll. exists (SRet (Some x) w). split; [|split; reflexivity].
    unfold len. rewrite C2, skipn_app, skipn_all, Nat.sub_diag. cbn [List.app skipn].
    destruct Af as (Ha & Hw & _). rewrite <- Hw. apply sb_return; assumption.
Qed.
Print Assumptions C32_return_partial.

(** ** A concrete setting: int a, b, i; int c[8]; char s[8]; int f(int x, int y).  Memory holds its own addresses + 100. *)
Definition name (s : string) : text := bytes s.
Definition binop_of (o : opcode) : option binop :=
  find (fun b => opcode_beq (opc b) o) [BMul; BDiv; BMod; BAdd; BSub; Shl; Shr; BLt; BGt; BLe; BGe; BEq; BNe; BAnd; BXor; BOr].
Definition demo_M : meaning Z unit :=
  mkmeaning Z unit (fun v => negb (v =? 0)) (fun c => c) (fun c => c) (fun c => c) (fun c => c)
    (fun o a => match o with OP_negate => Some (cun UNeg a) | OP_bit_not => Some (cun UCompl a) | OP_log_not => Some (cun UNot a) | _ => None end)
    (fun o a b => match binop_of o with Some o => cbin o a b | None => None end)
    (fun sz a w => Some (a + 100)) (fun _ _ _ w => Some w) (fun _ _ w => Some w)
    (fun f A w => if f =? 7 then Some (w, fun _ => A 0%nat - A 1%nat) else None) (fun _ _ _ => None) (fun _ _ => 0) (fun w _ _ => w).
Definition demo_var (x : text) : option vinfo :=
  if list_eq_dec Z.eq_dec x (name "a") then Some (mkvi 0 0 0 4) else if list_eq_dec Z.eq_dec x (name "b") then Some (mkvi 1 0 0 4) else
  if list_eq_dec Z.eq_dec x (name "i") then Some (mkvi 2 0 0 4) else if list_eq_dec Z.eq_dec x (name "c") then Some (mkvi 3 0 8 4) else
  if list_eq_dec Z.eq_dec x (name "s") then Some (mkvi 4 0 8 1) else None.
Definition demo_func (x : text) : option Z := if list_eq_dec Z.eq_dec x (name "f") then Some 7 else None.
Definition demo_constant (x : text) : option Z := None.
Definition demo_special (x : text) : bool := false.
Definition demo_st : pst := mkp 5 2 (fun _ => []) (fun _ => None) (fun _ => None) (fun _ => None) (fun _ => 0%nat) (fun _ => 0) [].
(** the function "return e;", and its variables *)
Notation demo_read e := (read_return demo_constant demo_var demo_func demo_special 1000 200 1 (rtokens e ++ [(T_semicolon, [])]) demo_st 0).
Definition demo_V (F : pst) : vars := mkvars (fun _ => false) (fun _ => None) (p_init F) (fun _ => true) (fun _ => 0) (fun _ => false) (fun _ => 4).
Definition demo_env (v : nat) : option Z := nth v [Some 10; Some 3; Some 2; Some 1000; Some 2000] None.   (* a b i c s *)
Definition demo_runs (F : pst) (r : Z) : Prop :=
  sruns demo_M (demo_V F) (fun _ => 0) (fun _ => 0) (p_code F) (p_next F) (p_then F) (p_else F) 1 false 0 (mks demo_env tt [] None) tt (Some r).
Definition demo_eval (e : rexpr) (r : Z) : Prop :=
  ceval (lookup demo_constant demo_var (demo_V demo_st) demo_M (fun _ => 0) demo_env) (element_size demo_var) (m_read demo_M) (do_call demo_func demo_M) e tt r tt.
Definition num (s : string) : rexpr := RLit (Decimal (bytes s)).
Definition v (s : string) : rexpr := RVar (bytes s).
Lemma demo_like : c_like demo_M.
Proof.
  constructor; try reflexivity. intros o a b r N1 N2 H. destruct o; try congruence; exact H.
Qed.
Lemma demo_locals F : forall e, no_globals (is_constant demo_constant) (is_global demo_var (demo_V F)) e = true.
Proof.
  assert (Hg : forall x, is_global demo_var (demo_V F) x = false) by (intros x; unfold is_global; destruct (demo_var x); reflexivity).
  fix IH 1. intros [l|c|x|x i|u e1|o a b|c a d|e1|f args]; cbn [no_globals]; rewrite ?Hg; try reflexivity; try apply IH.
  - apply andb_true_intro; split; apply IH.
  - apply andb_true_intro; split; [apply andb_true_intro; split|]; apply IH.
  - induction args as [|a args IHa]; [reflexivity|]. cbn [forallb]. apply andb_true_intro. split; [apply IH|exact IHa].
Qed.
(** The theorem applied: whatever is accepted, fine and settled runs as it evaluates. *)
Theorem C32_return_applies : forall e r ts F, rgram 3 e -> demo_read e = Some (ts, F) ->
  fine (is_constant demo_constant) (is_pointer demo_var) (is_variable demo_var) demo_special e = true -> demo_eval e r -> demo_runs F r.
Proof.
  intros e r ts' F Ge E Fe Ev. unfold demo_runs, demo_eval in *.
  assert (Hd : forall x y, demo_var x = Some y -> 0 <= vi_ptr y /\ (v_global (demo_V F) (vi_id y) = false -> (vi_id y < p_var demo_st)%nat)).
  { intros x y. unfold demo_var. repeat (destruct (list_eq_dec _ _ _); [intros Q; injection Q as <-; cbn; split; [lia|intros _; lia]|]). discriminate. }
  assert (Hs : settled (is_constant demo_constant) (is_global demo_var (demo_V F)) e = true).
  { unfold settled. rewrite (demo_locals F). apply orb_true_r. }
  destruct (C32_return_partial demo_constant demo_var demo_func demo_special 1000 demo_M (demo_V F) (fun _ => 0) (fun _ => 0) 1 false e 200 [] demo_st 0 ts' F F demo_like Hd
    (Nat.lt_0_succ 1) (Nat.lt_succ_diag_r 1) (fun c _ => conj eq_refl (conj eq_refl (conj eq_refl eq_refl))) Ge Fe Hs E (fun c _ => same_refl c F) (fun _ _ => eq_refl) (fun _ _ => eq_refl) (fun _ _ => eq_refl)) as [_ H].
  apply (H (mks demo_env tt [] None) (mks demo_env tt [] None)); [constructor|reflexivity|exact Ev].
Qed.
Print Assumptions C32_return_applies.

(** 1 + a * 2 - b % 2 == f(a, b + 1) + 14 && !(c[i + 1] == 7) || a ? (a, b, c as operands of ?:) ... *)
Definition sample : rexpr :=
  RCond (RBin LOr (RBin LAnd (RBin BEq (RBin BSub (RBin BAdd (num "1") (RBin BMul (v "a") (num "2"))) (RBin BMod (v "b") (num "2")))
                                     (RBin BAdd (RCall (name "f") [v "a"; RBin BAdd (v "b") (num "1")]) (num "14")))
                        (RUn UNot (RPar (RBin BEq (RIdx (name "c") (RBin BAdd (v "i") (num "1"))) (num "7")))))
                  (v "a"))
        (RBin BSub (v "a") (RBin BMul (v "b") (num "2"))) (num "5").
Theorem C32_sample : rgram 3 sample /\
  fine (is_constant demo_constant) (is_pointer demo_var) (is_variable demo_var) demo_special sample = true /\ demo_eval sample 4 /\
  exists ts F, demo_read sample = Some (ts, F) /\ demo_runs F 4.
Proof.
  assert (A : demo_read sample <> None) by (vm_compute; discriminate).
  assert (W : forall d, In d ["1"; "2"; "14"; "7"; "5"]%string -> literal_wf (Decimal (bytes d))).
  { intros d Hd. repeat destruct Hd as [<-|Hd]; try (split; [do 2 eexists; split; [reflexivity|]; vm_compute; split; discriminate|vm_compute bytes; repeat constructor; lia]). destruct Hd. }
  assert (G : rgram 3 sample).
  { unfold sample, num, v. cbn [rgram level fold_right]. repeat match goal with |- _ /\ _ => split end; try lia; try exact I; apply W; cbn; tauto. }
  assert (Fi : fine (is_constant demo_constant) (is_pointer demo_var) (is_variable demo_var) demo_special sample = true) by reflexivity.
  assert (E : demo_eval sample 4).
  { unfold demo_eval, sample. eapply E_cond_true with (v := 1) (w' := tt); [|lia|].
    - eapply E_or_true with (v := 1); [|lia]. eapply (E_and_true _ _ _ _ _ _ _ 1 tt 1); [|lia|].
      + eapply E_bin with (x := 20) (y := 20) (w' := tt); try discriminate; [| |reflexivity].
        * eapply E_bin with (x := 21) (y := 1) (w' := tt); try discriminate; [| |reflexivity].
          -- eapply E_bin with (x := 1) (y := 20) (w' := tt); try discriminate; [apply E_lit| |reflexivity]. eapply E_bin with (x := 10) (y := 2) (w' := tt); try discriminate; [apply E_var; reflexivity|apply E_lit|reflexivity].
          -- eapply E_bin with (x := 3) (y := 2) (w' := tt); try discriminate; [apply E_var; reflexivity|apply E_lit|reflexivity].
        * eapply E_bin with (x := 6) (y := 14) (w' := tt); try discriminate; [|apply E_lit|reflexivity].
          eapply E_call with (vs := [10; 4]) (w' := tt).
          -- econstructor; [apply E_var; reflexivity|]. econstructor; [|constructor]. eapply E_bin with (x := 3) (y := 1) (w' := tt); try discriminate; [apply E_var; reflexivity|apply E_lit|reflexivity].
          -- exists 7. split; [reflexivity|]. intros A' P. eexists. split; [reflexivity|]. cbn. rewrite (P 0%nat 10 eq_refl), (P 1%nat 4 eq_refl). reflexivity.
      + apply (E_un _ _ _ _ UNot _ tt 0 tt). apply E_par. eapply E_bin with (x := 1112) (y := 7) (w' := tt); try discriminate; [|apply E_lit|reflexivity].
        eapply E_idx with (a := 1000) (k := 3); [reflexivity| |reflexivity]. eapply E_bin with (x := 2) (y := 1) (w' := tt); try discriminate; [apply E_var; reflexivity|apply E_lit|reflexivity].
    - eapply E_bin with (x := 10) (y := 6) (w' := tt); try discriminate; [apply E_var; reflexivity| |reflexivity].
      eapply E_bin with (x := 3) (y := 2) (w' := tt); try discriminate; [apply E_var; reflexivity|apply E_lit|reflexivity]. }
  split; [exact G|]. split; [exact Fi|]. split; [exact E|]. destruct (demo_read sample) as [[ts F]|] eqn:Q; [|congruence].
  exists ts, F. split; [reflexivity|]. eapply C32_return_applies; eauto.
Qed.

(** ** What the restrictions exclude: each of these is accepted and compiled to something else. *)
Ltac insn := eapply sb_cons; [econstructor; reflexivity|].
Ltac straight := match goal with |- exists ts F, ?r = _ /\ _ => let t := eval vm_compute in r in match t with Some (?a, ?b) => exists a, b end end;
  split; [vm_compute; reflexivity|]; unfold demo_runs; apply sr_return; cbv [p_code upd Nat.eqb]; repeat insn; apply sb_return; reflexivity.
(** shifts bind less tightly than anything else: 1 | 1 << 2 is (1 | 1) << 2 *)
Definition with_shift := RBin BOr (num "1") (RBin Shl (num "1") (num "2")).
Theorem C32_shift_refuted : demo_eval with_shift 5 /\ exists ts F, demo_read with_shift = Some (ts, F) /\ demo_runs F 4.
Proof.
  split.
  - unfold demo_eval, with_shift. eapply E_bin with (x := 1) (y := 4) (w' := tt); try discriminate; [apply E_lit| |reflexivity].
    eapply E_bin with (x := 1) (y := 2) (w' := tt); try discriminate; [apply E_lit|apply E_lit|reflexivity].
  - straight.
Qed.
Print Assumptions C32_shift_refuted.
(** the minus before a parenthesis is lost: -(3) is 3 *)
Definition with_minus := RUn UNeg (RPar (num "3")).
Theorem C32_minus_refuted : demo_eval with_minus (-3) /\ exists ts F, demo_read with_minus = Some (ts, F) /\ demo_runs F 3.
Proof.
  split.
  - unfold demo_eval, with_minus. apply (E_un _ _ _ _ UNeg _ tt 3 tt). apply E_par. apply E_lit.
  - straight.
Qed.
Print Assumptions C32_minus_refuted.
(** what is added to an element is scaled like a pointer offset: c[0] + 1 adds 4 *)
Definition with_element := RBin BAdd (RIdx (name "c") (RLit (Octal []))) (num "1").
Theorem C32_element_refuted : demo_eval with_element 1101 /\ exists ts F, demo_read with_element = Some (ts, F) /\ demo_runs F 1104.
Proof.
  split.
  - unfold demo_eval, with_element. eapply E_bin with (x := 1100) (y := 1) (w' := tt); try discriminate; [|apply E_lit|reflexivity].
    eapply E_idx with (a := 1000) (k := 0); [reflexivity|apply (E_lit _ _ _ _ (Octal []))|reflexivity].
  - straight.
Qed.
Print Assumptions C32_element_refuted.
(** ... and only one operand is read there: s[0] + 2 * 3 is (s[0] + 2) * 3 *)
Definition with_product := RBin BAdd (RIdx (name "s") (RLit (Octal []))) (RBin BMul (num "2") (num "3")).
Theorem C32_element_precedence_refuted : demo_eval with_product 2106 /\ exists ts F, demo_read with_product = Some (ts, F) /\ demo_runs F 6306.
Proof.
  split.
  - unfold demo_eval, with_product. eapply E_bin with (x := 2100) (y := 6) (w' := tt); try discriminate; [| |reflexivity].
    + eapply E_idx with (a := 2000) (k := 0); [reflexivity|apply (E_lit _ _ _ _ (Octal []))|reflexivity].
    + eapply E_bin with (x := 2) (y := 3) (w' := tt); try discriminate; [apply E_lit|apply E_lit|reflexivity].
  - straight.
Qed.
Print Assumptions C32_element_precedence_refuted.
(** an arm of ?: with && in it is skipped, and its value is never computed: 1 ? 1 && 1 : 7 has no value *)
Definition with_arm := RCond (num "1") (RBin LAnd (num "1") (num "1")) (num "7").
(** running constants, copies, branches and returns *)
Definition plain (i : rinsn) : bool := match i_op (r_insn i) with OP_load_constant | OP_assign | OP_branch | OP_return => true | _ => false end.
Lemma plain_step V i s s' : (forall v, v_global V v = false) -> plain i = true -> sstep demo_M V (fun _ => 0) (fun _ => 0) i s s' ->
  exists d, i_rd (r_insn i) = Some d /\ s' = mks (upd (s_env s) d (match i_op (r_insn i), i_rs1 (r_insn i) with OP_assign, Some x => s_env s x | _, _ => Some (v_init V d) end)) (s_world s) [] None /\
    (i_op (r_insn i) = OP_load_constant \/ i_op (r_insn i) = OP_assign).
Proof.
  intros Hg P H. inversion H; subst; cbn in P; try discriminate P; unfold set, get in *; cbn in *; rewrite ?Hg in *;
    try (match goal with G : binary ?o = true |- _ => destruct o; discriminate end); try (match goal with G : unary ?o = true |- _ => destruct o; discriminate end);
    match goal with G : Some _ = Some s' |- _ => apply some_inj in G; subst end; eexists; (split; [reflexivity|]); (split; [reflexivity|]); auto.
Qed.
Fixpoint xblock (V : vars) (l : list rinsn) (s : @senv Z unit) : option (send Z unit) :=
  match l with
  | [] => Some (SFall s)
  | mkr (mkinsn o d x y) sz str :: l =>
      match o, d, x with
      | OP_load_constant, Some d, _ => xblock V l (mks (upd (s_env s) d (Some (v_init V d))) (s_world s) [] None)
      | OP_assign, Some d, Some x => xblock V l (mks (upd (s_env s) d (s_env s x)) (s_world s) [] None)
      | OP_branch, _, Some x => match s_env s x with Some a => Some (SBranch a s) | None => None end
      | OP_return, _, Some x => match s_env s x with Some a => Some (SRet (Some a) (s_world s)) | None => None end
      | _, _, _ => None
      end
  end.
Lemma xblock_complete V l : (forall v, v_global V v = false) -> forallb plain l = true -> forallb (fun i => match i_rs1 (r_insn i), i_op (r_insn i) with None, OP_return => false | _, _ => true end) l = true ->
  forall s e, sblock demo_M V (fun _ => 0) (fun _ => 0) l s e -> xblock V l s = Some e.
Proof.
  intros Hg. induction l as [|i l IH]; intros P Q s e H; [inversion H; reflexivity|]. cbn [forallb] in P, Q. apply andb_true_iff in P. destruct P as [P Pl]. apply andb_true_iff in Q. destruct Q as [Q Ql].
  inversion H; subst; clear H.
  - match goal with G : sstep _ _ _ _ _ _ _ |- _ => pose proof G as G'; apply (plain_step V) in G; auto; destruct G as (d & Ed & -> & O) end.
    destruct i as [[o rd rs1 rs2] sz str]. cbn in Ed, O, P |- *. rewrite Ed. destruct O as [-> | ->].
    + apply IH; assumption.
    + inversion G'; subst; try discriminate. apply IH; assumption.
  - cbn. unfold get in *. rewrite Hg in *. match goal with G : s_env s _ = Some _ |- _ => rewrite G end. reflexivity.
  - cbn. unfold get in *. rewrite Hg in *. match goal with G : s_env s _ = Some _ |- _ => rewrite G end. reflexivity.
  - discriminate Q.
Qed.
Theorem C32_conditional_refuted : demo_eval with_arm 1 /\ exists ts F, demo_read with_arm = Some (ts, F) /\ forall r, ~ demo_runs F r.
Proof.
  split.
  - unfold demo_eval, with_arm. eapply E_cond_true with (v := 1) (w' := tt); [apply E_lit|lia|]. apply (E_and_true _ _ _ _ _ _ _ 1 tt 1); [apply E_lit|lia|apply E_lit].
  - destruct (demo_read with_arm) as [[ts F]|] eqn:E; [|vm_compute in E; discriminate]. exists ts, F. split; [reflexivity|].
    vm_compute in E. apply some_inj in E. injection E as <- <-. intros r H.
    unfold demo_runs in H. match type of H with sruns ?M ?V ?g ?p (p_code ?F) _ _ _ _ _ _ _ _ _ => set (V0 := V) in H; set (F0 := F) in H end.
    assert (Hg : forall v, v_global V0 v = false) by reflexivity.
    assert (Step : forall b s r, frun demo_M V0 (fun _ => 0) (fun _ => 0) 1 false F0 b s tt (Some r) -> 
      forallb plain (p_code F0 b) = true -> forallb (fun i => match i_rs1 (r_insn i), i_op (r_insn i) with None, OP_return => false | _, _ => true end) (p_code F0 b) = true ->
      exists e, xblock V0 (p_code F0 b) s = Some e /\ finish demo_M V0 (fun _ => 0) (fun _ => 0) 1 false F0 b e tt (Some r)).
    { intros b s r0 R P Q. apply tail_run in R. destruct R as (e & B & Fi). exists e. split; [|exact Fi]. apply xblock_complete; auto. }
    destruct (Step 0%nat _ _ H eq_refl eq_refl) as (e1 & X1 & F1). vm_compute in X1. apply some_inj in X1. subst e1. cbn [finish] in F1.
    destruct F1 as (t & e & Ht & He & R1). vm_compute in Ht. apply some_inj in Ht. subst t. change (m_truth demo_M 1) with true in R1. cbn iota in R1.
    destruct (Step _ _ _ R1 eq_refl eq_refl) as (e2 & X2 & F2). vm_compute in X2. apply some_inj in X2. subst e2. cbn [finish] in F2.
    destruct F2 as [(_ & Q & _)|(c & Hc & _ & R2)]; [discriminate Q|]. vm_compute in Hc. discriminate Hc.
Qed.
Print Assumptions C32_conditional_refuted.
