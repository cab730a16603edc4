(** C48: SSA construction.  The code ssa_build produces does what the code it is given does. *)
From Coq Require Import String.
From Verif.Mid Require Import AllocSpec Ssa SsaSpec SsaSim SsaForm SsaCheck SrunsDet.
From Verif.Front Require Import LexSpec StmtEval StmtExec CodeExec.
From Verif.Properties Require Import StmtProps.
Open Scope Z_scope.

(** blocks: at least the blocks that can be reached; a: the result.  The parameters' first versions start with the values of the
    parameters; nothing is assumed of the other versions, nor of the variables. *)
Theorem C48_same_execution_partial :
  forall V in_scope declared temp g entry exit params nvars code,
  ssa_input V in_scope declared temp g entry exit params nvars code ->
  forall blocks fuel n a, (forall b, reach (succs g) entry b -> In b blocks) ->
  (2 * length blocks < fuel)%nat -> (length blocks * (length blocks + 1) < n)%nat ->
  ssa_build fuel n V in_scope declared temp g entry exit params nvars code = Some a ->
  forall {val world : Type} (M : meaning val world) goff place void env env' w w' r,
  (forall j x d, nth_error params j = Some x -> nth_error (ss_params a) j = Some d -> env' d = env x) ->
  let before := sruns M V goff place code (g_next g) (g_then g) (g_else g) exit void entry (mks env w [] None) in
  let after := sruns M (versions V (ss_base a)) goff (fun d => place (ss_base a d)) (ss_code a) (g_next g) (g_then g) (g_else g) exit void entry (mks env' w [] None) in
  before w' r -> after w' r /\ forall w'' r', after w'' r' -> w'' = w' /\ r' = r.
Proof.
  intros V in_scope declared temp g entry exit params nvars code I blocks fuel n a HU Hf Hn Ha val world M goff place void env env' w w' r Hp before after H.
  destruct (build_form V in_scope declared temp g entry exit params nvars code I blocks HU fuel n a Hf Hn Ha) as (Nin & Nout & O & P & cs & _ & F & _). specialize (F I).
  assert (A : after w' r).
  { apply (runs_sim V in_scope declared temp g entry exit params nvars code I _ _ _ Nin Nout O P cs F M goff place void entry _ w' r H (reach_refl _ _) eq_refl).
    intros m1 Hm. rewrite (fo_entry _ _ _ _ _ _ _ _ _ _ _ _ _ _ F) in Hm. inversion Hm as [m m' K E1 E2 E3|]; subst.
    constructor; try reflexivity.
    - intros x d E. rewrite K in E. eapply (fo_named _ _ _ _ _ _ _ _ _ _ _ _ _ _ F entry); [apply reach_refl|exact E].
    - intros x d _ _ E. rewrite K in E. destruct (fo_start _ _ _ _ _ _ _ _ _ _ _ _ _ _ F x d E) as (j & Ej & Dj). cbn. eapply Hp; eassumption. }
  split; [exact A|]. intros w'' r' A'. eapply runs_det; eassumption.
Qed.
Print Assumptions C48_same_execution_partial.

(** ** From C to SSA code: C47 and C48 together. *)
Definition graph_of (F : pst) : cfg :=
  mkcfg (p_next F) (p_then F) (p_else F)
    (fun b => map Some (filter (fun a => Insn.mem b (opt_list (p_next F a) ++ opt_list (p_then F a) ++ opt_list (p_else F a))) (List.seq 0 (p_blk F)))).
Theorem C48_source_to_ssa_partial :
  forall find_constant find_global find_type find_func special lim {world : Type} (M : meaning Z world) V goff place void
         params k q rest nvars ts' F e T in_scope declared temp blocks fuel n a,
  (* as in C47_function_partial *)
  c_like M ->
  (forall x v, find_global x = Some v -> v_global V (vi_id v) = true /\ 0 <= vi_ptr v) ->
  (forall p, In p params -> v_global V (vi_id (snd p)) = false /\ (vi_id (snd p) < nvars)%nat /\ 0 <= vi_ptr (snd p) /\ find_constant (fst p) = None) ->
  NoDup (map (fun p => vi_id (snd p)) params) ->
  sgram true q ->
  fine_stmt (is_constant find_constant) find_type (gtype find_global) (is_func find_func) special q (ctypes [[]; params]) = Some T ->
  read_func_body find_constant find_global find_type find_func special lim params k
    ((T_open_curly, []) :: stokens q ++ (T_close_curly, []) :: rest) nvars = Some (ts', F, e) ->
  (forall v, (nvars <= v)%nat -> v_global V v = false /\ v_init V v = p_init F v) -> (forall v, v_func V v = None) ->
  (forall v, In v (c_locals e) -> no_storage V (vi_id v) = (vi_array v =? 0)) ->
  places q = map place (arrays_of e) ->
  (* as in C48_same_execution_partial *)
  ssa_input V in_scope declared temp (graph_of F) 0 1 (map (fun p => vi_id (snd p)) params) (p_var F) (p_code F) ->
  (forall b, reach (succs (graph_of F)) 0 b -> In b blocks) -> (2 * length blocks < fuel)%nat -> (length blocks * (length blocks + 1) < n)%nat ->
  ssa_build fuel n V in_scope declared temp (graph_of F) 0 1 (map (fun p => vi_id (snd p)) params) (p_var F) (p_code F) = Some a ->
  forall env env' w out E' w',
    (forall j x d, nth_error (map (fun p => vi_id (snd p)) params) j = Some x -> nth_error (ss_params a) j = Some d -> env' d = env x) ->
    exec find_constant find_type (gtype find_global) (gget find_global M goff) (gput find_global M goff) (m_read M) (m_write M) (do_call find_func M)
      q (at_start params env) w out E' w' ->
    let result := sruns M (versions V (ss_base a)) goff (fun d => place (ss_base a d)) (ss_code a) (p_next F) (p_then F) (p_else F) 1 void 0 (mks env' w [] None) in
    let finishes r := result w' r /\ forall w'' r', result w'' r' -> w'' = w' /\ r' = r in
    match out with
    | OReturn r => finishes r
    | ONormal => void = true -> finishes None
    | OBreak | OContinue => False
    end.
Proof.
  intros fc fg ft ff special lim world M V goff place void params k q rest nvars ts' F e T in_scope declared temp blocks fuel n a HM Hgl Hp ND G Fi H HV Hfun HL Pl I HU Hf Hn Ha env env' w out E' w' He X result finishes.
  pose proof (proj2 (C47_function_partial fc fg ft ff special lim M V goff place void params k q rest nvars ts' F e T HM Hgl Hp ND G Fi H HV Hfun HL Pl) env w out E' w' X) as Y.
  assert (S : forall r, sruns M V goff place (p_code F) (p_next F) (p_then F) (p_else F) 1 void 0 (mks env w [] None) w' r -> finishes r).
  { intros r Y'. exact (C48_same_execution_partial V in_scope declared temp (graph_of F) 0%nat 1%nat _ _ _ I blocks fuel n a HU Hf Hn Ha M goff place void env env' w w' r He Y'). }
  cbv zeta in Y. destruct out; auto.
Qed.
Print Assumptions C48_source_to_ssa_partial.

(** ** A function that meets all of this: SsaCheck.v decides ssa_input.
    { int s = 0; while (n > 0) { int t = n && total; s = s + t; n--; } return s; }
    Variables: 0 total, 1 n, 2 s, 11 t, 19 the result of &&.  Blocks: 0 entry, 1 exit, 4 the condition, 8, 12, 10, 14, 13 the
    body (&&: 12 14 10; 13: where its values meet), 9 the return. *)
Definition loop_prog : stmt :=
  StmtProps.seq [int_ [mkd 0 (name "s") None (Some zero) 0];
    SWhile (RBin BGt (v "n") zero)
      (StmtProps.block [int_ [mkd 0 (name "t") None (Some (RBin LAnd (v "n") (v "total"))) 0]; SSimple (Assign (lv "s") (RBin BAdd (v "s") (v "t")));
                        SSimple (Post (lv "n") BSub)]);
    SReturn (Some (v "s"))].
(** the scopes: the body of the function has 2-10 and 27, the body of the loop 11-26; the blocks in which the variables are declared *)
Definition loop_outer : list (list nat) := [List.seq 2 9 ++ [27%nat]].
Definition loop_chain (b : nat) : list (list nat) := if Insn.mem b [8; 12; 10; 14; 13]%nat then List.seq 11 16 :: loop_outer else loop_outer.
Definition loop_scope (x b : nat) : bool := var_check_in_scope [1%nat] (loop_chain b) x.
Definition loop_declared (b : nat) : list nat := match b with 0 => [1; 2] | 8 => [11] | _ => [] end%nat.
Definition loop_temp (x : nat) : bool := (x =? 19)%nat.
Definition loop_blocks : list nat := [0; 4; 8; 9; 12; 10; 14; 13; 1]%nat.
Definition loop_needed (b : nat) : list nat := match b with 0 => [1; 0] | 13 => [0; 1; 2; 19] | 1 => [] | _ => [0; 1; 2] end%nat.
Definition loop_F : option (pst * cenv) := match demo_read loop_prog with Some (_, F, e) => Some (F, e) | None => None end.
Definition loop_check : bool :=
  match loop_F with
  | Some (F, e) => input_ok (demo_V F e) loop_scope loop_declared loop_temp (graph_of F) 0 1 [1%nat] (p_var F) (p_code F) loop_blocks loop_needed
  | None => false
  end.
Definition loop_ssa : option ssa :=
  match loop_F with
  | Some (F, e) => ssa_build 20 100 (demo_V F e) loop_scope loop_declared loop_temp (graph_of F) 0 1 [1%nat] (p_var F) (p_code F)
  | None => None
  end.
Lemma loop_ok : loop_check = true. Proof. vm_compute. reflexivity. Qed.
(** what it is turned into: opcode, rd, rs1, rs2; 28 is the parameter's first version, 32 and 33 are n and s in the loop *)
Definition line (i : rinsn) := (i_op (r_insn i), i_rd (r_insn i), i_rs1 (r_insn i), i_rs2 (r_insn i)).
Example loop_ssa_code : match loop_ssa with Some a => Some (ss_params a, map (fun b => map line (ss_code a b)) [0; 4; 8; 12; 14; 10; 13; 9]%nat) | None => None end = Some ([28],
  [[(OP_allocat, Some 29, None, None); (OP_load_constant, Some 30, None, None); (OP_assign, Some 31, Some 30, None); (OP_unwound_phi, Some 32, Some 28, None); (OP_unwound_phi, Some 33, Some 31, None)];
   [(OP_load_constant, Some 34, None, None); (OP_gt, Some 35, Some 32, Some 34); (OP_branch, None, Some 35, None)];
   [(OP_allocat, Some 36, None, None); (OP_branch, None, Some 32, None)];
   [(OP_branch, None, Some 0, None)];
   [(OP_load_constant, Some 37, None, None); (OP_assign, Some 38, Some 37, None); (OP_unwound_phi, Some 39, Some 38, None)];
   [(OP_load_constant, Some 46, None, None); (OP_assign, Some 47, Some 46, None); (OP_unwound_phi, Some 39, Some 47, None)];
   [(OP_assign, Some 40, Some 39, None); (OP_add, Some 41, Some 33, Some 40); (OP_assign, Some 42, Some 41, None); (OP_load_constant, Some 43, None, None);
    (OP_sub, Some 44, Some 32, Some 43); (OP_assign, Some 45, Some 44, None); (OP_unwound_phi, Some 32, Some 45, None); (OP_unwound_phi, Some 33, Some 42, None)];
   [(OP_return, None, Some 33, None)]])%nat.
Proof. vm_compute. reflexivity. Qed.
Definition ssa_F (F : pst) (a : ssa) : pst := mkp (p_var F) (p_blk F) (ss_code a) (p_next F) (p_then F) (p_else F) (p_pred F) (p_init F) (p_stack F).
Definition loop_world (x : Z) : Z := if x =? 9000 then 1 else 0.
Definition loop_start (d : nat) : option Z := if (d =? 28)%nat then Some 3 else None.
Lemma loop_check_is : loop_check = match loop_F with
  | Some (F, e) => input_ok (demo_V F e) loop_scope loop_declared loop_temp (graph_of F) 0 1 [1%nat] (p_var F) (p_code F) loop_blocks loop_needed
  | None => false end.
Proof. unfold loop_check. reflexivity. Qed.
Lemma loop_ssa_is : loop_ssa = match loop_F with
  | Some (F, e) => ssa_build 20 100 (demo_V F e) loop_scope loop_declared loop_temp (graph_of F) 0 1 [1%nat] (p_var F) (p_code F)
  | None => None end.
Proof. unfold loop_ssa. reflexivity. Qed.
Lemma loop_params : match loop_ssa with Some a => ss_params a | None => [] end = [28%nat].
Proof. vm_compute. reflexivity. Qed.
Lemma loop_runs : match loop_F with Some (F, e) => xrun demo_M (demo_V F e) (fun _ => 0) demo_place 1 false F 40 0 (mks (demo_env 3) loop_world [] None)
  | None => Unknown end = Ends loop_world (Some 3).
Proof. vm_compute. reflexivity. Qed.
Theorem C48_example : exists F e a, loop_F = Some (F, e) /\ loop_ssa = Some a /\
  ssa_input (demo_V F e) loop_scope loop_declared loop_temp (graph_of F) 0 1 [1%nat] (p_var F) (p_code F) /\
  (forall b, reach (succs (graph_of F)) 0 b -> In b loop_blocks) /\
  (* total is 1 (at 9000): the function returns n if it is not negative; here for n = 3 *)
  sruns demo_M (demo_V F e) (fun _ => 0) demo_place (p_code F) (p_next F) (p_then F) (p_else F) 1 false 0 (mks (demo_env 3) loop_world [] None) loop_world (Some 3) /\
  sruns demo_M (versions (demo_V F e) (ss_base a)) (fun _ => 0) (fun d => demo_place (ss_base a d)) (ss_code a) (p_next F) (p_then F) (p_else F) 1 false 0
    (mks loop_start loop_world [] None) loop_world (Some 3).
Proof.
  pose proof loop_ok as K. rewrite loop_check_is in K. pose proof loop_ssa_is as A. pose proof loop_params as P. pose proof loop_runs as X.
  destruct loop_F as [[F e]|]; [|discriminate]. apply input_ok_sound in K. destruct K as [K U]. apply xrun_ends in X. destruct X as [S _].
  destruct loop_ssa as [a|]; [|discriminate]. exists F, e, a.
  split; [reflexivity|]. split; [reflexivity|]. split; [exact K|]. split; [exact U|]. split; [exact S|]. symmetry in A.
  refine (proj1 (C48_same_execution_partial _ _ _ _ (graph_of F) 0%nat 1%nat [1%nat] (p_var F) (p_code F) K loop_blocks 20 100 a U _ _ A demo_M (fun _ => 0) demo_place false (demo_env 3) _ _ _ _ _ S)).
  - cbn. lia.
  - cbn. lia.
  - intros [|[|j]] x d Hx Hd; try discriminate Hx. injection Hx as <-. rewrite P in Hd. injection Hd as <-. reflexivity.
Qed.
Print Assumptions C48_example.

(** ** What the restrictions exclude: a variable that is needed where it does not count as visible.
    { int y; { int x = 1; if (n) x = 2; y = x; } y = y + 1; return y; }
    The block where the two values of x meet (11) also holds the instructions behind the inner braces, so its scope is the outer one,
    x is not found there and no phi instruction is made: x is taken to be 1. *)
Definition scope_prog : stmt :=
  StmtProps.seq [int_ [mkd 0 (name "y") None None 0];
    StmtProps.block [int_ [mkd 0 (name "x") None (Some (num "1")) 0]; SIf (v "n") (SSimple (Assign (lv "x") (num "2"))); SSimple (Assign (lv "y") (v "x"))];
    SSimple (Assign (lv "y") (RBin BAdd (v "y") (num "1"))); SReturn (Some (v "y"))].
(** the braces of the function have 2, 10 and 11, the inner ones 3-9 *)
Definition outer_scope : list (list nat) := [[2; 10; 11]]%nat.
Definition inner_scope : list (list nat) := List.seq 3 7 :: outer_scope.
(** the scopes with which the blocks are created and their instructions added; behind the inner braces come the last four of 11 *)
Definition scope_chain (b : nat) : list (list nat) :=
  match b with
  | 0%nat => bb_scope outer_scope [outer_scope; inner_scope; inner_scope; inner_scope]
  | 4%nat => bb_scope inner_scope [inner_scope]
  | 7%nat => bb_scope inner_scope [inner_scope; inner_scope]
  | 8%nat => bb_scope inner_scope []
  | 11%nat => bb_scope inner_scope [inner_scope; outer_scope; outer_scope; outer_scope; outer_scope]
  | _ => outer_scope
  end.
Definition scope_in (x b : nat) : bool := var_check_in_scope [1%nat] (scope_chain b) x.
Definition scope_declared (b : nat) : list nat := match b with 0 => [1; 2; 3] | _ => [] end%nat.
Definition scope_ssa : option (pst * cenv * ssa) :=
  match demo_read scope_prog with
  | Some (_, F, e) => match ssa_build 20 100 (demo_V F e) scope_in scope_declared (fun _ => false) (graph_of F) 0 1 [1%nat] (p_var F) (p_code F) with
                      | Some a => Some (F, e, a) | None => None end
  | None => None
  end.
Definition both (n : Z) (x : option (pst * cenv * ssa)) : option (@verdict StmtProps.mem * @verdict StmtProps.mem) :=
  match x with
  | Some (F, e, a) =>
      Some (xrun demo_M (demo_V F e) (fun _ => 0) demo_place 1 false F 20 0 (mks (demo_env n) (fun _ => 0) [] None),
            xrun demo_M (versions (demo_V F e) (ss_base a)) (fun _ => 0) (fun d => demo_place (ss_base a d)) 1 false (ssa_F F a) 20 0
              (mks (fun d => if (d =? hd 0%nat (ss_params a))%nat then Some n else None) (fun _ => 0) [] None))
  | None => None
  end.
Lemma scope_verdicts : both 1 scope_ssa = Some (Ends (fun _ => 0) (Some 3), Ends (fun _ => 0) (Some 2)).
Proof. vm_compute. reflexivity. Qed.
Lemma scope_ssa_is F e a : scope_ssa = Some (F, e, a) -> (exists ts, demo_read scope_prog = Some (ts, F, e)) /\
  ssa_build 20 100 (demo_V F e) scope_in scope_declared (fun _ => false) (graph_of F) 0 1 [1%nat] (p_var F) (p_code F) = Some a.
Proof.
  unfold scope_ssa. intros H. destruct (demo_read scope_prog) as [[[ts F0] e0]|]; [|discriminate].
  destruct (ssa_build _ _ _ _ _ _ _ _ _ _ _ _) as [a0|] eqn:A; [|discriminate]. apply some_inj in H. injection H as -> -> ->. split; [exists ts; reflexivity|exact A].
Qed.
Lemma scope_source : match demo_interp scope_prog 1 (fun _ => 0) with Some (OReturn (Some r), _, _) => r =? 3 | _ => false end = true.
Proof. vm_compute. reflexivity. Qed.
(** C, and the code before, give 3 for n = 1; SSA construction succeeds and makes a function that returns 2, and nothing else *)
Theorem C48_scope_refuted : exists F e a ts, demo_read scope_prog = Some (ts, F, e) /\
  ssa_build 20 100 (demo_V F e) scope_in scope_declared (fun _ => false) (graph_of F) 0 1 [1%nat] (p_var F) (p_code F) = Some a /\
  (exists w', demo_exec scope_prog 1 (fun _ => 0) (OReturn (Some 3)) w') /\
  (exists w', demo_runs F e 1 (fun _ => 0) w' (Some 3)) /\
  let after := sruns demo_M (versions (demo_V F e) (ss_base a)) (fun _ => 0) (fun d => demo_place (ss_base a d)) (ss_code a) (p_next F) (p_then F) (p_else F) 1 false 0
    (mks (fun d => if (d =? hd 0%nat (ss_params a))%nat then Some 1 else None) (fun _ => 0) [] None) in
  (exists w', after w' (Some 2)) /\ forall w'' r', after w'' r' -> r' = Some 2.
Proof.
  pose proof scope_verdicts as X. pose proof scope_ssa_is as S. destruct scope_ssa as [[[F e] a]|]; [|discriminate X]. specialize (S F e a eq_refl). destruct S as [[ts Rd] A]. cbn [both] in X.
  exists F, e, a, ts. split; [exact Rd|]. split; [exact A|]. apply some_inj in X. apply pair_equal_spec in X. destruct X as [X1 X2]. apply xrun_ends in X1, X2. destruct X1 as [X1 _]. destruct X2 as [X2 U2].
  split.
  - pose proof scope_source as Q. destruct (demo_interp scope_prog 1 (fun _ => 0)) as [[[o E] w']|] eqn:Q'; [|discriminate Q]. destruct o as [| | |[r|]]; try discriminate Q. apply Z.eqb_eq in Q. subst r. exists w'. eapply demo_interp_ok. exact Q'.
  - split; [eexists; exact X1|]. split; [eexists; exact X2|]. intros w'' r' R. apply (U2 w'' r' R).
Qed.
Print Assumptions C48_scope_refuted.

(** Another limit: var->subscripts has 64 elements and new_name does not check.  void f(int p) { int x; x = p; ... x = p; }: with 63 assignments
    all is well, with 64 (and the declaration: 65 versions) the array is overrun. *)
Definition many_code (n : nat) (b : nat) : list rinsn :=
  match b with
  | 0%nat => mkr (mkinsn OP_allocat (Some 1%nat) None None) 0 0 :: repeat (mkr (mkinsn OP_assign (Some 1%nat) (Some 0%nat) None) 0 0) n
  | _ => []
  end.
Definition many_g : cfg := mkcfg (fun b => match b with 0%nat => Some 1%nat | _ => None end) (fun _ => None) (fun _ => None) (fun b => match b with 1%nat => [Some 0%nat] | _ => [] end).
Definition many_V : vars := mkvars (fun _ => false) (fun _ => None) (fun _ => 0) (fun _ => true) (fun _ => 0) (fun _ => false) (fun _ => 4).
Definition many_ssa (n : nat) : option ssa := ssa_build 10 20 many_V (fun _ _ => true) (fun b => match b with 0%nat => [0; 1]%nat | _ => [] end) (fun _ => false) many_g 0 1 [0%nat] 2 (many_code n).
Theorem C48_versions_refuted :
  (forall n, (n <= 64)%nat -> ssa_input many_V (fun _ _ => true) (fun b => match b with 0%nat => [0; 1]%nat | _ => [] end) (fun _ => false) many_g 0 1 [0%nat] 2 (many_code n)) /\
  (exists a, many_ssa 63 = Some a) /\ many_ssa 64 = None.
Proof.
  split; [|split].
  - intros n Hn.
    assert (C : forallb (fun n => input_ok many_V (fun _ _ => true) (fun b => match b with 0%nat => [0; 1]%nat | _ => [] end) (fun _ => false) many_g 0 1 [0%nat] 2 (many_code n) [0; 1]%nat (fun b => match b with 0%nat => [0%nat] | _ => [] end))
                  (List.seq 0 65) = true) by (vm_compute; reflexivity).
    rewrite forallb_forall in C. apply (input_ok_sound _ _ _ _ _ _ _ _ _ _ _ _ (C n (proj2 (in_seq 65 0 n) ltac:(lia)))).
  - assert (X : match many_ssa 63 with Some _ => true | None => false end = true) by (vm_compute; reflexivity). destruct (many_ssa 63) as [a|]; [exists a; reflexivity|discriminate].
  - vm_compute. reflexivity.
Qed.
Print Assumptions C48_versions_refuted.
