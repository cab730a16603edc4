(** C40: register allocation. *)
From Verif.Mid Require Import Insn Graph LiveSpec Alloc AllocSpec AllocStatic AllocInv AllocFunc AllocFrame AllocRoom.
From Coq Require Import ZArith List Lia.
Import ListNotations.
Local Open Scope Z_scope.

(** ** The code with registers and slots does what the code with variables does.
    Any function of the form [allocatable] (any number of blocks, instructions and variables), any meaning of the operations,
    any run of the code before allocation that ends: the code after allocation, started with the arguments in the first
    registers and anything in the other registers and in the slots, ends too, leaving the same world and the same result.
    [careful]: no operand clash occurred while this function was allocated (see C40_clash_refuted).
    Missing, hence "partial": clashes; addresses of scalar locals; variadic functions; and the forms excluded by
    [allocatable] (calls through pointers whose arguments are used again, stale copies of globals after a write). *)
Theorem C40_allocation_partial {val world} (M : meaning val world) V g code entry exit params order rpo live_out killed cons arity goff void exit_prev s prog sF :
  allocatable V g code entry exit params order rpo live_out killed cons arity ->
  (forall v, v_global V v = true -> goff v <> 0) -> separate_globals M V goff ->
  (forall b, In b order -> (In b exit_prev <-> In exit (succs g b))) ->
  (* at the start no local has a slot, the globals are in place *)
  (forall v, v_global V v = false -> a_off s v = 0) -> (forall v, v_global V v = true -> a_off s v = goff v) -> a_size s = 4 -> (forall v, a_cons s v = cons v) ->
  careful V live_out killed arity (g_next g) (g_then g) (g_else g) rpo exit code params false order s = true ->
  alloc_func V live_out killed arity (g_next g) (g_then g) (g_else g) rpo exit code exit_prev void params false order s = Some (prog, sF) ->
  forall vars m w r,
    (* only parameters have a value at the start: the i-th that of register i *)
    (forall v a, vars v = Some a -> exists i, nth_error params i = Some v /\ t_reg m i = a) ->
    sruns M V goff (fun d => m_frame M (a_off sF d + 4)) code (g_next g) (g_then g) (g_else g) exit void entry (mks vars (t_world m) [] None) w r ->
    mruns M prog entry m w r.
Proof.
  intros OK GO LAW EP H1 H2 H3 H4 CF AF vars m w r HV R.
  assert (FS : first_state V cons goff s) by (split; [exact H1|split; [exact H2|split; [exact H3|exact H4]]]).
  apply (func_ok V g code entry exit params order rpo live_out killed cons arity goff OK GO M LAW void exit_prev EP s prog sF FS CF AF (mks vars (t_world m) [] None)); auto.
Qed.
Print Assumptions C40_allocation_partial.

(** ** Functions whose blocks mention at most 8 variables (counting the arguments of calls once more) need no such
    hypothesis.  [vs b]: the variables of block b.  Calls through pointers are left out. *)
Theorem C40_few_variables_partial {val world} (M : meaning val world) V g code entry exit params order rpo live_out killed cons arity goff void exit_prev s prog sF vs :
  allocatable V g code entry exit params order rpo live_out killed cons arity ->
  (forall v, v_global V v = true -> goff v <> 0) -> separate_globals M V goff ->
  (forall b, In b order -> (In b exit_prev <-> In exit (succs g b))) ->
  (forall v, v_global V v = false -> a_off s v = 0) -> (forall v, v_global V v = true -> a_off s v = goff v) -> a_size s = 4 -> (forall v, a_cons s v = cons v) ->
  (forall b i v, In b order -> In i (plain_code code b) -> i_rd i = Some v \/ i_rs1 i = Some v \/ i_rs2 i = Some v -> In v (vs b)) ->
  incl params (vs entry) ->
  (forall b, In b order -> (length (vs b) + most_args 0 (code b) <= 8)%nat) ->
  (forall b i, In b order -> In i (plain_code code b) -> i_op i <> OP_indirect) ->
  alloc_func V live_out killed arity (g_next g) (g_then g) (g_else g) rpo exit code exit_prev void params false order s = Some (prog, sF) ->
  forall vars m w r,
    (forall v a, vars v = Some a -> exists i, nth_error params i = Some v /\ t_reg m i = a) ->
    sruns M V goff (fun d => m_frame M (a_off sF d + 4)) code (g_next g) (g_then g) (g_else g) exit void entry (mks vars (t_world m) [] None) w r ->
    mruns M prog entry m w r.
Proof.
  intros OK GO LAW EP H1 H2 H3 H4 IN INP FEW NOI AF. eapply C40_allocation_partial; eauto.
  eapply (few_variables V g code entry exit params order rpo live_out killed cons arity OK vs); eauto.
Qed.
Print Assumptions C40_few_variables_partial.

(** ** The stack frame.  Whatever the function (variadic or not; no careful, no liveness needed): two locals never share a
    slot, the storage of arrays and structures is as large as it must be and overlaps neither slots nor other storage,
    everything lies between offset 4 and the stack size, and every store instruction stores into the frame, outside the
    storage of arrays and structures. *)
Theorem C40_frame_layout V live_out killed arity next then_ else_ rpo exit code exit_prev void params va_args order s prog sF :
  NoDup params -> (forall v, In v params -> v_global V v = false) ->
  (forall b i d, In b order -> In i (code b) -> i_rd (r_insn i) = Some d -> i_op (r_insn i) = OP_unwound_phi \/ i_op (r_insn i) = OP_allocat -> v_global V d = false) ->
  (forall v, v_global V v = false -> a_off s v = 0) -> (forall v, v_global V v = true -> a_off s v <> 0) -> a_size s = 4 ->
  alloc_func V live_out killed arity next then_ else_ rpo exit code exit_prev void params va_args order s = Some (prog, sF) ->
  let off := a_off sF in let size := a_size sF in
  let slot v := v_global V v = false /\ off v <> 0 in
  let storage d := exists b i, In b order /\ In i (code b) /\ i_op (r_insn i) = OP_allocat /\ i_rd (r_insn i) = Some d /\ (v_scalar V d && (v_array V d =? 0)) = false in
  let length d := (if v_array V d =? 0 then 1 else v_array V d) * (if v_ptr V d then 4 else v_tsize V d) in
  (forall v, slot v -> 4 <= off v /\ off v + 4 <= size) /\
  (forall u v, slot u -> slot v -> u <> v -> off u + 4 <= off v \/ off v + 4 <= off u) /\
  (forall d, storage d -> slot d /\ off d + 4 + length d <= size) /\
  (forall d v, storage d -> slot v -> off d + 4 + length d <= off v \/ off v + 4 <= off d + 4) /\
  (forall d e, storage d -> storage e -> d <> e -> off d + 4 + length d <= off e + 4 \/ off e + 4 + length e <= off d + 4) /\
  (forall b c p, In (b, c) prog -> In p c -> p_op p = OP_store ->
     4 <= p_src1 p /\ p_src1 p + 4 <= size /\ forall d, storage d -> off d + 4 + length d <= p_src1 p \/ p_src1 p + 4 <= off d + 4).
Proof.
  intros ND PL FT O0 OG SZ H off size slot storage len.
  destruct (frame_ok V live_out killed arity then_ else_ next rpo exit code exit_prev void params va_args order s prog sF ND PL) as (L & D & G & W & C); auto.
  { intros b i Hb Hi d Ed Eo. eapply FT; eauto. }
  destruct G as [G1 G2 G3 G4 G5 G6 G7 G8].
  assert (AP : forall r q, In r L -> In q L -> r <> q -> apart r q).
  { clear - G1. induction G1 as [|a l F G IH]; [intros r q []|]. intros r q [<-|Ir] [<-|Iq] N; try contradiction; auto.
    - rewrite Forall_forall in F. auto.
    - rewrite Forall_forall in F. destruct (F r Ir); [right|left]; assumption. }
  assert (LE : forall d, len d <= storage_size V d).
  { intros d. unfold len, storage_size. destruct (v_array V d =? 0) eqn:E; [rewrite Z.mul_1_l|]; apply align_ge. }
  assert (ST : forall d, storage d -> In d D).
  { intros d (b & i & Hb & Hi & E1 & E2 & E3). eapply W; eauto. split; [exact E1|]. split; [exact E2|exact E3]. }
  assert (STS : forall d, storage d -> slot d /\ In (AllocFrame.store (off d + 4) (storage_size V d)) L).
  { intros d Hd. destruct (G7 d (ST d Hd)) as (Q1 & Q2 & Q3). split; [split; assumption|exact Q3]. }
  assert (SL : forall v, slot v -> In (AllocFrame.slot (off v)) L) by (intros v [Q1 Q2]; apply G5; assumption).
  assert (NE : forall d a, storage d -> In (AllocFrame.slot a) L -> off d + 4 + len d <= a \/ a + 4 <= off d + 4).
  { intros d a Hd Ia. destruct (STS d Hd) as [_ Q]. pose proof (LE d). destruct (AP _ _ Q Ia ltac:(discriminate)) as [A|A]; cbn in A; lia. }
  split; [|split; [|split; [|split; [|split]]]].
  - intros v Hv. specialize (G2 _ (SL v Hv)). cbn in G2. unfold size. lia.
  - intros u v Hu Hv N. destruct (AP _ _ (SL u Hu) (SL v Hv)) as [A|A]; [|cbn in A; lia|cbn in A; lia]. intros E. injection E as E. apply N. apply G6; [apply Hu|apply Hv|apply Hu|exact E].
  - intros d Hd. destruct (STS d Hd) as [Q1 Q2]. split; [exact Q1|]. specialize (G2 _ Q2). cbn in G2. pose proof (LE d). unfold size. lia.
  - intros d v Hd Hv. apply NE; auto.
  - intros d e Hd He N. destruct (STS d Hd) as [S1 Q1]. destruct (STS e He) as [S2 Q2]. pose proof (LE d). pose proof (LE e).
    destruct (AP _ _ Q1 Q2) as [A|A]; [|cbn in A; lia|cbn in A; lia]. intros E. injection E as E _. apply N. apply G6; [apply S1|apply S2|apply S1|]. unfold off in E. lia.
  - intros b c p Hb Hp Eo. specialize (C b c p Hb Hp Eo). pose proof (G2 _ C) as Q. cbn in Q. split; [lia|]. split; [unfold size; lia|]. intros d Hd. apply NE; auto.
Qed.
Print Assumptions C40_frame_layout.

(** ** An example: a loop, an array, a global, a call.
      int A[4]; s = 5; A[0] = s; while (n) { s = s + n; n = n - 1; } G = f(s, A[0]); return G's value
    n 0, s0 1, s1 2, n1 3, s2 4, one 5, n2 6, result 7, G 8, A 9, A[0] 10.  Blocks: 0 entry, 1 test, 2 body, 3 end, 4 exit. *)
Definition xi (o : opcode) (d x y : option nat) : rinsn := mkr (mkinsn o d x y) 4 0.
Definition xp (x : nat) (left : Z) : rinsn := mkr (mkinsn OP_push None (Some x) None) left 0.
Definition x_code (b : nat) : list rinsn :=
  match b with
  | 0%nat => [xi OP_load_constant (Some 1%nat) None None; xi OP_allocat (Some 9%nat) None None; xi OP_write None (Some 9%nat) (Some 1%nat);
              xi OP_unwound_phi (Some 2%nat) (Some 1%nat) None; xi OP_unwound_phi (Some 3%nat) (Some 0%nat) None]
  | 1%nat => [xi OP_branch None (Some 3%nat) None]
  | 2%nat => [xi OP_add (Some 4%nat) (Some 2%nat) (Some 3%nat); xi OP_load_constant (Some 5%nat) None None; xi OP_sub (Some 6%nat) (Some 3%nat) (Some 5%nat);
              xi OP_unwound_phi (Some 2%nat) (Some 4%nat) None; xi OP_unwound_phi (Some 3%nat) (Some 6%nat) None]
  | 3%nat => [xi OP_read (Some 10%nat) (Some 9%nat) None; xp 2 2; xp 10 1; mkr (mkinsn OP_call None None None) 0 1; xi OP_func_ret (Some 7%nat) None None;
              xi OP_assign (Some 8%nat) (Some 7%nat) None; xi OP_return None (Some 7%nat) None]
  | _ => []
  end.
Definition x_next (b : nat) : option nat := match b with 0 | 2 => Some 1 | 3 => Some 4 | _ => None end%nat.
Definition x_then (b : nat) : option nat := match b with 1 => Some 2 | _ => None end%nat.
Definition x_else (b : nat) : option nat := match b with 1 => Some 3 | _ => None end%nat.
Definition x_g : cfg := mkcfg x_next x_then x_else (fun _ => []).
Definition x_order : list nat := [0; 1; 2; 3; 4]%nat.
Definition x_V : vars := mkvars (Nat.eqb 8) (fun _ => None) (fun v => match v with 1%nat => 5 | 5%nat => 1 | _ => 0 end) (fun _ => true)
  (fun v => if Nat.eqb v 9 then 4 else 0) (fun _ => false) (fun _ => 4).
Definition x_live (b : nat) : list nat := match b with 0 | 1 | 2 => [2; 3; 9] | _ => [] end%nat.
Definition x_kill (v b : nat) : bool := (Nat.eqb b 0 && Nat.eqb v 0) || existsb (fun i => match i_rd (r_insn i) with Some d => Nat.eqb d v && negb (op_is (r_insn i) OP_unwound_phi) | None => false end) (x_code b).
Definition x_cons (v : nat) : Z :=
  match v with 0%nat => 4 | 1%nat => 3 | 2%nat => 1 | 3%nat => 2 | 4%nat => 3 | 5%nat => 2 | 6%nat => 4 | 7%nat => 6 | 8%nat => 0 | 9%nat => 2 | 10%nat => 2 | _ => -1 end.
Definition x_arity (f : Z) : Z := 2.
Definition x_goff (v : nat) : Z := 8.
Definition x_s : ra := mkra (fun _ => None) (fun _ => false) (fun v => if Nat.eqb 8 v then 8 else 0) 4 x_cons [] false 0.
Notation x_alloc := (alloc_func x_V x_live x_kill x_arity (g_next x_g) (g_then x_g) (g_else x_g) (fun b => Z.of_nat b) 4 x_code [3]%nat false [0]%nat false x_order x_s).
(* memory and the global *)
Definition x_world := ((Z -> Z) * Z)%type.
Definition x_M : meaning Z x_world :=
  mkmeaning Z x_world (fun x => negb (x =? 0)) (fun c => c) (fun c => c) (fun o => 1000 + o) (fun o => 2000 + o) (fun _ _ => None)
    (fun o a b => match o with OP_add => Some (a + b) | OP_sub => Some (a - b) | _ => None end)
    (fun _ a w => Some (fst w a)) (fun _ a x w => Some (fun b => if b =? a then x else fst w b, snd w)) (fun _ _ _ => None)
    (fun _ A w => Some (w, fun _ => A 0%nat + A 1%nat)) (fun _ _ _ => None) (fun w _ => snd w) (fun w _ x => (fst w, x)).

Ltac each := repeat match goal with
  | H : In _ (_ :: _) |- _ => destruct H as [H|H]; [subst|]
  | H : In _ [] |- _ => destruct H
  | H : _ \/ _ |- _ => destruct H
  | H : False |- _ => destruct H
  | H : _ = ?x |- _ => is_var x; subst x
  end.
Lemma x_forgets i b v : In i (plain_code x_code b) -> ~ forgets x_V i v.
Proof.
  intros I (E1 & E2 & E3). do 4 (destruct b as [|b]; [cbn in I; each; cbn in *; try discriminate; try (injection E1 as <-; discriminate)|]). destruct I.
Qed.
Lemma x_assigned t v : (exists i, In i t /\ gives x_V i v) -> (forall j, In j t -> exists b, In j (plain_code x_code b)) -> assigned x_V t v.
Proof.
  intros (i & I & G) H. apply in_split in I. destruct I as (t1 & t2 & ->). exists t1, i, t2. split; [reflexivity|]. split; [exact G|].
  intros j J. destruct (H j) as [b B]; [apply in_or_app; right; right; exact J|]. eapply x_forgets; eauto.
Qed.
Lemma walk_last succ a l b : walk succ a l b -> l = [a] /\ b = a \/ exists l' p, l = l' ++ [p] ++ [b] /\ walk succ a (l' ++ [p]) p /\ In b (succ p).
Proof.
  intros H. destruct H as [a|a l b c W I]; [left; auto|]. right. assert (Q : exists l', l = l' ++ [b]) by (destruct W; [exists []; reflexivity|eauto]).
  destruct Q as [l' ->]. exists l', b. rewrite <- app_assoc. auto.
Qed.
Lemma app_last {A} (l l' : list A) x y : l ++ [x] = l' ++ [y] -> l = l' /\ x = y.
Proof. apply app_inj_tail. Qed.
Definition x_pred (b : nat) : list nat := match b with 1 => [0; 2] | 2 | 3 => [1] | 4 => [3] | _ => [] end%nat.
Lemma x_preds p b : In b (succs x_g p) -> In p (x_pred b).
Proof. do 4 (destruct p as [|p]; [cbn; intros I; each; cbn; tauto|]). cbn. tauto. Qed.
Lemma x_block l b v : walk (succs x_g) 0%nat (l ++ [b]) b -> (b = 1 \/ b = 2 \/ b = 3)%nat -> (v = 2 \/ v = 3 \/ v = 9)%nat ->
  exists i c, In c l /\ In i (plain_code x_code c) /\ gives x_V i v.
Proof.
  assert (Q : forall n l b, length l = n -> walk (succs x_g) 0%nat (l ++ [b]) b -> (b = 1 \/ b = 2 \/ b = 3)%nat -> (v = 2 \/ v = 3 \/ v = 9)%nat ->
    exists i c, In c l /\ In i (plain_code x_code c) /\ gives x_V i v).
  { induction n as [n IH] using lt_wf_ind. intros k c Ln W B Hv. apply walk_last in W. destruct W as [[E E']|(l' & p & E & W & S)].
    - subst c. destruct B as [B|[B|B]]; discriminate.
    - replace (l' ++ [p] ++ [c]) with ((l' ++ [p]) ++ [c]) in E by (rewrite <- app_assoc; reflexivity). apply app_last in E. destruct E as [-> _]. rewrite app_length in Ln. cbn in Ln.
      apply x_preds in S.
      assert (P : p = 0%nat \/ (p = 1 \/ p = 2 \/ p = 3)%nat) by (destruct B as [->|[->| ->]]; cbn in S; intuition). destruct P as [->|P].
      + assert (G : exists i, In i (plain_code x_code 0) /\ gives x_V i v).
        { destruct Hv as [->|[->| ->]]; [exists (mkinsn OP_unwound_phi (Some 2%nat) (Some 1%nat) None)|exists (mkinsn OP_unwound_phi (Some 3%nat) (Some 0%nat) None)|exists (mkinsn OP_allocat (Some 9%nat) None None)];
            (split; [cbn; tauto|split; [reflexivity|intros [? ?]; discriminate]]). }
        destruct G as (i & I & G). exists i, 0%nat. split; [apply in_or_app; right; left; reflexivity|]. auto.
      + destruct (IH (length l') ltac:(lia) l' p eq_refl W P Hv) as (i & d & Dl & I & G). exists i, d. split; [apply in_or_app; left; exact Dl|]. auto. }
  intros W. eapply Q; eauto.
Qed.
Lemma x_in_flat l j : In j (flat_map (plain_code x_code) l) -> exists b, In j (plain_code x_code b).
Proof. rewrite in_flat_map. intros (b & _ & I). eauto. Qed.
Lemma x_in_code b k i : nth_error (plain_code x_code b) k = Some i -> In i (plain_code x_code b).
Proof. apply nth_error_In. Qed.
Ltac nths := repeat match goal with
  | H : nth_error _ ?k = Some _ |- _ => first [is_var k; destruct k; cbn in H; try discriminate | injection H as <-]
  end.
Lemma x_where l k b j : In j (flat_map (plain_code x_code) l ++ firstn k (plain_code x_code b)) -> exists c, In j (plain_code x_code c).
Proof.
  intros J. apply in_app_or in J. destruct J as [J|J]; [eapply x_in_flat; eauto|]. exists b. rewrite <- (firstn_skipn k (plain_code x_code b)). apply in_or_app. left. exact J.
Qed.
Lemma x_inside l k b v : existsb (fun i => match i_rd i with Some d => Nat.eqb d v | None => false end) (firstn k (plain_code x_code b)) = true ->
  assigned_or_param x_V [0]%nat (flat_map (plain_code x_code) l ++ firstn k (plain_code x_code b)) v.
Proof.
  intros H. apply existsb_exists in H. destruct H as (i & I & E). destruct (i_rd i) as [d|] eqn:Ed; [|discriminate]. apply Nat.eqb_eq in E. subst d.
  left. apply x_assigned; [|apply x_where]. assert (J : In i (flat_map (plain_code x_code) l ++ firstn k (plain_code x_code b))) by (apply in_or_app; right; exact I).
  exists i. split; [exact J|]. split; [exact Ed|]. intros Q. destruct (x_where _ _ _ _ J) as [c C]. apply (x_forgets i c v C). split; [exact Ed|exact Q].
Qed.
Lemma x_not4 v : ~ needed (succs x_g) (plain_code x_code) v 4.
Proof. intros N. inversion N as [b c S E|b c S U N']; subst; destruct S. Qed.
Lemma x_not3 v : ~ needed (succs x_g) (plain_code x_code) v 3.
Proof.
  intros N. inversion N as [b c S E|b c S U N']; subst; destruct S as [<-|[]]; [|exact (x_not4 v N')]. destruct E as (l1 & i & l2 & E & _). destruct l1; discriminate.
Qed.
Lemma x_allocatable : allocatable x_V x_g x_code 0 4 [0]%nat x_order (fun b => Z.of_nat b) x_live x_kill x_cons x_arity.
Proof.
  split.
  - eexists. reflexivity.
  - repeat constructor; cbn; intuition discriminate.
  - intros b c Hb Hc. unfold x_order in *. each; cbn in *; tauto.
  - intros l1 b l2 E. unfold x_order in E. do 5 (destruct l1 as [|? l1]; [injection E as E _; subst; first [left; reflexivity|right; eexists; split; [left; reflexivity|cbn; tauto]|right; eexists; split; [right; left; reflexivity|cbn; tauto]
      |right; eexists; split; [right; right; right; left; reflexivity|cbn; tauto]]|injection E as <- E]). destruct l1; discriminate.
  - intros l1 b c l2 E. unfold x_order in E. do 4 (destruct l1 as [|? l1]; [injection E as E E' _; subst; reflexivity|injection E as <- E]). destruct l1 as [|? [|? ?]]; discriminate.
  - intros b c _ _ E. lia.
  - intros b Hb Hc. unfold x_order in *. each; cbn in *; intuition discriminate.
  - intros b Hb Nx. unfold x_order in *. each; try contradiction; try (eapply shape_next; [reflexivity|reflexivity|reflexivity|intros i I; cbn in I; each; discriminate]).
    eapply (shape_branch _ _ _ 2 3 []); try reflexivity. intros j [].
  - split; [reflexivity|]. split; [reflexivity|discriminate].
  - intros b v Hb Gv N. assert (Q : forall c, In c x_order -> exposed (plain_code x_code c) v -> (c = 0 \/ In v [2; 3; 9])%nat).
    { intros c Hc (l1 & i & l2 & E & R & U). unfold x_order in *. each; auto; right; unfold plain_code in E; cbn in E;
        repeat (destruct l1 as [|? l1]; [injection E as E _; subst i; destruct R as [R|R]; cbn in R; try discriminate; injection R as <-; first [cbn; tauto | exfalso; eapply U; [left; reflexivity|split; [reflexivity|discriminate]] | exfalso; eapply U; [right; left; reflexivity|split; [reflexivity|discriminate]]
          | exfalso; eapply U; [right; right; left; reflexivity|split; [reflexivity|discriminate]] | exfalso; eapply U; [right; right; right; right; left; reflexivity|split; [reflexivity|discriminate]] ]|injection E as <- E]); destruct l1; discriminate. }
    assert (Q2 : In v [2; 3; 9]%nat).
    { clear Hb. revert b N. assert (T : forall b, needed (succs x_g) (plain_code x_code) v b -> In v [2; 3; 9]%nat); [|intros b N; eapply T; eauto]. intros b N.
      induction N as [b c S E|b c S U N IH]; [|exact IH]. assert (P := x_preds _ _ S). assert (Hc : In c x_order).
      { do 5 (destruct c as [|c]; [cbn; tauto|]). cbn in P. destruct P. }
      destruct (Q c Hc E) as [->|H]; [|exact H]. cbn in P. destruct P. }
    clear Q. unfold x_order in Hb. destruct Hb as [<-|[<-|[<-|[<-|[<-|[]]]]]]; [exact Q2|exact Q2|exact Q2| |].
    + destruct (x_not3 v N).
    + destruct (x_not4 v N).
  - intros b k i v Hb E R. unfold x_order in Hb. each; unfold plain_code in E; cbn in E; repeat (destruct k as [|k]; [cbn in E; injection E as <-; destruct R as [R|R]; cbn in R; try discriminate; injection R as <-; cbn; lia|cbn in E]); try discriminate; destruct k; discriminate.
  - intros b i v Hb I [W1 W2]. unfold x_order in Hb. each; cbn in I; each; cbn in W1, W2; try discriminate; try contradiction; injection W1 as <-; reflexivity.
  - intros v I. each. reflexivity.
  - split; [repeat constructor; auto|]. split; [cbn; lia|]. intros v I. each. reflexivity.
  - intros b k i v Hb E R Gv.
    assert (Hl : (b = 1 \/ b = 2 \/ b = 3)%nat -> (v = 2 \/ v = 3 \/ v = 9)%nat -> forall l, walk (succs x_g) 0%nat (l ++ [b]) b -> assigned_or_param x_V [0]%nat (flat_map (plain_code x_code) l ++ firstn k (plain_code x_code b)) v).
    { intros B Hv l W. left. destruct (x_block l b v W B Hv) as (j & c & Cl & J & G). apply x_assigned; [|apply x_where].
      exists j. split; [|exact G]. apply in_or_app. left. apply in_flat_map. eauto. }
    left. unfold x_order in Hb. each; unfold plain_code in E; cbn in E;
      repeat (destruct k as [|k]; [cbn in E; injection E as <-; destruct R as [R|R]; cbn in R; try discriminate; injection R as <-; first [solve [intros l _; apply x_inside; reflexivity]|solve [apply Hl; cbn; tauto]|intros l _; right; split; [left; reflexivity|]; intros j J; destruct (x_where _ _ _ _ J) as [c C]; eapply x_forgets; exact C]|cbn in E]); try discriminate; destruct k; discriminate.
  - intros b i d Hb I E G. unfold x_order in Hb. each; cbn in I; each; cbn in E; try discriminate; injection E as <-; try discriminate. split; [cbn; tauto|cbn; lia].
  - intros b i Hb I E. unfold x_order in Hb. each; cbn in I; each; try reflexivity; cbn in E; each; discriminate.
  - intros b i v Hb I E. unfold x_order in Hb. each; cbn in I; each; discriminate.
  - intros b i d Hb I E Eo NS. assert (Q : b = 0%nat /\ i = mkinsn OP_allocat (Some 9%nat) None None) by (unfold x_order in Hb; each; cbn in I; each; try discriminate; auto).
    destruct Q as [-> ->]. cbn in E. injection E as <-. split; [reflexivity|]. split; [intros [Q|[]]; discriminate|]. intros c j k1 k2 Hc N2 E2 N1.
    assert (K1 : k1 = 1%nat) by (do 5 (destruct k1 as [|k1]; [cbn in N1; try discriminate; reflexivity|]); destruct k1; discriminate). subst k1.
    unfold x_order in Hc. each; unfold plain_code in N2; cbn in N2; repeat (destruct k2 as [|k2]; [cbn in N2; injection N2 as <-; cbn in E2; try discriminate; auto|cbn in N2]); try discriminate; destruct k2; discriminate.
  - intros b l1 i l2 d Hb E Eo Ed. unfold x_order in Hb.
    assert (G : v_global x_V d = false /\ (forall j, In j l2 -> ~ reads j d) /\ (forall j, In j (plain_code x_code b) -> i_rd j = Some d -> i_op j = OP_unwound_phi) /\ (b = 0%nat -> d <> 0%nat)).
    { each; unfold plain_code in E; cbn in E; repeat (destruct l1 as [|? l1]; [injection E as <- <-; cbn in Eo, Ed; try discriminate; injection Ed as <-;
        (split; [reflexivity|]); (split; [intros j J [R|R]; cbn in J; each; discriminate|]); (split; [intros j J Q; cbn in J; each; cbn in Q; try discriminate; reflexivity|discriminate])|injection E as <- E]); destruct l1; discriminate. }
    destruct G as (G1 & G2 & G3 & G4). split; [exact G1|]. split; [exact G2|]. split; [intros j J [W1 W2]; apply W2; apply G3; assumption|]. intros B [Q|[]]. apply (G4 B). auto.
  - intros b k i Hb E Eo. unfold x_order in Hb. each; cbn in E; repeat (destruct k as [|k]; [cbn in E; injection E as <-; cbn in Eo; try discriminate; (eexists; split; [reflexivity|]); cbn; repeat split; try lia; try discriminate; auto|cbn in E]); try discriminate; destruct k; discriminate.
  - intros b k i Hb E Eo. right. unfold x_order in Hb. each; cbn in E; repeat (destruct k as [|k]; [cbn in E; injection E as <-; cbn in Eo; try discriminate; do 2 eexists; repeat split; reflexivity|cbn in E]); try discriminate; destruct k; discriminate.
  - intros b l1 l2 l3 i v Hb E Eo. exfalso. assert (I : In i (plain_code x_code b)) by (rewrite E; apply in_or_app; right; apply in_or_app; right; left; reflexivity).
    unfold x_order in Hb. each; cbn in I; each; discriminate.
  - intros b l1 i l2 v Hb E Eo G [R|(y & f & _ & Q)]; [|discriminate]. exfalso. assert (I : In i (plain_code x_code b)) by (rewrite E; apply in_or_app; right; left; reflexivity).
    unfold x_order in Hb. each; cbn in I; each; try discriminate; (destruct R as [R|R]; cbn in R; injection R as <-; discriminate).
  - intros b i v Hb I Eo Ed Es. unfold x_order in Hb. each; cbn in I; each; try discriminate. cbn in Ed, Es. congruence.
Qed.
