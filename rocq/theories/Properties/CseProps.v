(** C46: common subexpression elimination. *)
From Verif.Base Require Import Int32.
From Verif.Ir Require Import Ph2Sem.
From Verif.Mid Require Import Insn Edges EdgesSpec EdgesProofs Graph Cfg CfgProofs Dom Dce DceSpec Fold FoldSpec Cse CseSpec CseStep CseForm CseLoop LiveSpec DceGraph.
From Verif.Properties Require Import DceProps.

(** The world of the examples: memory by address, and the value returned. *)
Definition cw_world := ((Z -> Z) * Z)%type.
Definition cw_store (m : Z -> Z) (a x : Z) : Z -> Z := fun b => if b =? a then x else m b.
Definition cw_effect (ins : nat -> insn) (i : nat) (a b : option Z) (w : cw_world) : cw_world :=
  match i_op (ins i), a, b with
  | OP_write, Some p, Some x => (cw_store (fst w) p x, snd w)
  | OP_return, Some x, _ => (fst w, x)
  | _, _, _ => w
  end.
Definition cw_other (ins : nat -> insn) (i : nat) (a b : option Z) (w : cw_world) : Z :=
  match i_op (ins i), a with OP_read, Some p => fst w p | _, _ => 0 end.
(** started with these variables and this memory, the function ends with this memory and this value *)
Definition cw_runs (ins : nat -> insn) (init : nat -> Z) (code : nat -> list nat) (vars : nat -> Z) (m m' : Z -> Z) (x : Z) : Prop :=
  exists k w, runs (fun z => negb (z =? 0)) (fun _ _ => 0) (fun (w : cw_world) _ _ => w) (cw_effect ins)
    (computes (cw_other ins) ins init) none ins (made [(0, NEXT, 1)]%nat) code k 0 (vars, (m, 0)) w /\
    (forall a, fst w a = m' a) /\ snd w = x.
Definition one_block (n : nat) (b : nat) : list nat := match b with 0%nat => seq 0 n | _ => [] end.
Definition own0 (i : nat) : nat := 0%nat.
Definition idom0 : tree := fun b => Some 0%nat.

Definition cw_steps (ins : nat -> insn) (init : nat -> Z) (l : list nat) (st : (nat -> Z) * cw_world) : (nat -> Z) * cw_world :=
  steps (fun _ _ => 0) (fun (w : cw_world) _ _ => w) (cw_effect ins) (computes (cw_other ins) ins init) none ins l st.
Lemma cw_steps_ext ins ins' init init' l st : (forall i, In i l -> ins i = ins' i) ->
  (forall i d, In i l -> i_op (ins i) = OP_load_constant -> i_rd (ins i) = Some d -> init d = init' d) ->
  cw_steps ins init l st = cw_steps ins' init' l st.
Proof.
  unfold cw_steps, steps. revert st. induction l as [|i l IH]; intros st H J; cbn [fold_left]; [reflexivity|].
  rewrite IH; [|intros k K; apply H; right; exact K|intros k d K; apply J; right; exact K]. f_equal.
  pose proof (H i (or_introl eq_refl)) as Q. pose proof (J i) as K. unfold step, computes, cw_effect, cw_other. rewrite <- Q.
  destruct (i_rd (ins i)) as [d|]; [|reflexivity]. destruct (i_op (ins i)); try reflexivity.
  rewrite (K d (or_introl eq_refl) eq_refl eq_refl). reflexivity.
Qed.
Lemma cw_runs_one ins init code vars m m' x : code 1%nat = [] ->
  (forall a, fst (snd (cw_steps ins init (code 0%nat) (vars, (m, 0)))) a = m' a) -> snd (snd (cw_steps ins init (code 0%nat) (vars, (m, 0)))) = x ->
  cw_runs ins init code vars m m' x.
Proof.
  intros C1 Hm Hx. exists 1%nat. eexists. split; [eapply runs_step with (c := 1%nat); [reflexivity|apply runs_end; reflexivity]|].
  rewrite C1. cbn [steps fold_left]. split; assumption.
Qed.
Definition result_is (r : csed) (code : list nat) (ins : list insn) (is : list nat) (init : list Z) (vs : list nat) : Prop :=
  match r with
  | Csed _ s => cs_code s 0%nat = code /\ cs_code s 1%nat = [] /\ map (cs_ins s) is = ins /\ map (fo_init (cs_fold s)) vs = init
  | _ => False
  end.

(** char f(char *a, int i) { char x = a[i]; a[i] = 5; return a[i]; } *)
Definition st_ins (i : nat) : insn :=
  match i with
  | 0 => mkinsn OP_add (Some 2) (Some 0) (Some 1)
  | 1 => mkinsn OP_read (Some 3) (Some 2) None
  | 2 => mkinsn OP_add (Some 4) (Some 0) (Some 1)
  | 3 => mkinsn OP_load_constant (Some 5) None None
  | 4 => mkinsn OP_write None (Some 4) (Some 5)
  | 5 => mkinsn OP_add (Some 6) (Some 0) (Some 1)
  | 6 => mkinsn OP_read (Some 7) (Some 6) None
  | _ => mkinsn OP_return None (Some 7) None
  end%nat.
Definition st_init (v : nat) : Z := match v with 5%nat => 5 | _ => 0 end.
Definition st_ins' : nat -> insn := upd st_ins 6%nat (mkinsn OP_assign (Some 7) (Some 3) None)%nat.
Theorem C46_stale_read_refuted :
  exists r s, optimize_all none own0 idom0 9 [0; 1]%nat st_ins (one_block 8) st_init = Csed r s /\
  forall vars m, vars 0%nat = 100 -> vars 1%nat = 1 ->
    cw_runs st_ins st_init (one_block 8) vars m (cw_store m 101 5) 5 /\
    cw_runs (cs_ins s) (fo_init (cs_fold s)) (cs_code s) vars m (cw_store m 101 5) (m 101).
Proof.
  assert (H : result_is (optimize_all none own0 idom0 9 [0; 1]%nat st_ins (one_block 8) st_init) [0; 1; 2; 3; 4; 6; 7]%nat
    (map st_ins' [0; 1; 2; 3; 4; 6; 7]%nat) [0; 1; 2; 3; 4; 6; 7]%nat [5] [5]%nat) by (vm_compute; repeat split).
  destruct (optimize_all none own0 idom0 9 [0; 1]%nat st_ins (one_block 8) st_init) as [r s| |]; [|destruct H|destruct H].
  exists r, s. split; [reflexivity|]. destruct H as (C0 & C1 & I & J). cbn [map] in J. injection J as J5.
  assert (X : forall st, cw_steps (cs_ins s) (fo_init (cs_fold s)) [0; 1; 2; 3; 4; 6; 7]%nat st = cw_steps st_ins' st_init [0; 1; 2; 3; 4; 6; 7]%nat st).
  { cbn [map] in I. injection I as I0 I1 I2 I3 I4 I6 I7. intros st. apply cw_steps_ext; cbn [In]; [intros i Q; intuition (subst; assumption)|].
    intros i d Q Op Rd. intuition (subst i; rewrite ?I0, ?I1, ?I2, ?I3, ?I4, ?I6, ?I7 in Op, Rd; cbn in Op, Rd; try discriminate; injection Rd as <-; assumption). }
  intros vars m V0 V1. split; apply cw_runs_one; try assumption; try reflexivity; rewrite ?C0, ?X; cbn; rewrite ?V0, ?V1; reflexivity.
Qed.
Print Assumptions C46_stale_read_refuted.

(** void swap(char *a, int i, char *b) { char t = a[i]; a[i] = *b; *b = t; }
    The addition for the left-hand side is deleted, because the next instruction reads something, and the reading of *b is
    replaced: a[i] keeps its value, and t goes to whatever address the deleted sum's variable holds. *)
Definition sw_ins (i : nat) : insn :=
  match i with
  | 0 => mkinsn OP_add (Some 3) (Some 0) (Some 1)
  | 1 => mkinsn OP_read (Some 4) (Some 3) None
  | 2 => mkinsn OP_add (Some 5) (Some 0) (Some 1)
  | 3 => mkinsn OP_read (Some 6) (Some 2) None
  | 4 => mkinsn OP_write None (Some 5) (Some 6)
  | 5 => mkinsn OP_write None (Some 2) (Some 4)
  | _ => mkinsn OP_return None None None
  end%nat.
Definition sw_ins' : nat -> insn := upd sw_ins 3%nat (mkinsn OP_assign (Some 6) (Some 4) None)%nat.
Theorem C46_swap_refuted :
  exists r s, optimize_all none own0 idom0 9 [0; 1]%nat sw_ins (one_block 7) (fun _ => 0) = Csed r s /\
  forall vars m, vars 0%nat = 100 -> vars 1%nat = 1 -> vars 2%nat = 200 ->
    cw_runs sw_ins (fun _ => 0) (one_block 7) vars m (cw_store (cw_store m 101 (m 200)) 200 (m 101)) 0 /\
    cw_runs (cs_ins s) (fo_init (cs_fold s)) (cs_code s) vars m (cw_store (cw_store m (vars 5%nat) (m 101)) 200 (m 101)) 0.
Proof.
  assert (H : result_is (optimize_all none own0 idom0 9 [0; 1]%nat sw_ins (one_block 7) (fun _ => 0)) [0; 1; 3; 4; 5; 6]%nat
    (map sw_ins' [0; 1; 3; 4; 5; 6]%nat) [0; 1; 3; 4; 5; 6]%nat [] []) by (vm_compute; repeat split).
  destruct (optimize_all none own0 idom0 9 [0; 1]%nat sw_ins (one_block 7) (fun _ => 0)) as [r s| |]; [|destruct H|destruct H].
  exists r, s. split; [reflexivity|]. destruct H as (C0 & C1 & I & _).
  assert (X : forall st, cw_steps (cs_ins s) (fo_init (cs_fold s)) [0; 1; 3; 4; 5; 6]%nat st = cw_steps sw_ins' (fun _ => 0) [0; 1; 3; 4; 5; 6]%nat st).
  { cbn [map] in I. injection I as I0 I1 I3 I4 I5 I6. intros st. apply cw_steps_ext; cbn [In]; [intros i Q; intuition (subst; assumption)|].
    intros i d Q Op. intuition (subst i; rewrite ?I0, ?I1, ?I3, ?I4, ?I5, ?I6 in Op; discriminate). }
  intros vars m V0 V1 V2. split; apply cw_runs_one; try assumption; try reflexivity; rewrite ?C0, ?X; cbn; rewrite ?V0, ?V1, ?V2; reflexivity.
Qed.
Print Assumptions C46_swap_refuted.

(** Where it is right. *)
Section Repeats.
  Variable ins : nat -> insn.
  Variable own : nat -> nat.
  Variable code : nat -> list nat.
  Variable g : egraph.
  Variables entry exit : nat.
  Variables is_global in_memory : nat -> bool.
  Variable init : nat -> Z.
  Let G := succs (to_cfg g).
  Hypothesis F : function_ok ins own code g entry exit is_global in_memory.
  Hypothesis Hnd : forall b, NoDup (code b).
  Hypothesis Hstrict : strict_reads ins code (to_cfg g) entry is_global.
  (* results of constants, arithmetic and readings are temporaries, and temporaries are not in memory *)
  Hypothesis Hlocal : forall b i v, reach G entry b -> In i (code b) -> i_rd (ins i) = Some v ->
    plain_or_read (i_op (ins i)) = true -> i_op (ins i) <> OP_assign -> is_global v = false.
  Hypothesis Hmem : forall b i v, reach G entry b -> In i (code b) -> i_rd (ins i) = Some v ->
    plain_or_read (i_op (ins i)) = true -> is_global v = false -> in_memory v = false.
  Variables (world : Type) (truth : Z -> bool) (get : world -> nat -> Z) (put : world -> nat -> Z -> world).
  Variables (effect : nat -> option Z -> option Z -> world -> world) (other : nat -> option Z -> option Z -> world -> Z).
  (* what is refuted above: where a sum is read twice, the sum is the address, read in the same way and used for nothing
     else, and nothing changes memory or the two variables in between *)
  Hypothesis Hrep : repeats_ok ins own code (to_cfg g) entry is_global in_memory
    (fun r n => forall x w, other r (Some x) None w = other n (Some x) None w).
  Variable order : list nat.
  Hypothesis Ho : forall b, In b order <-> reach G entry b.
  (* immediate dominators, as built (C38) *)
  Variable idom : tree.
  Hypothesis Hentry : idom entry = Some entry.
  Hypothesis Hidom : forall b, reach G entry b -> b <> entry -> exists d, idom b = Some d /\ reach G entry d /\ immediate_dominator G entry d b.
  Variable fuel : nat.
  Hypothesis Hfuel : (0 < fuel)%nat.
  Variables (r : bool) (s : cseing).
  Hypothesis E : optimize_all is_global own idom fuel order ins code init = Csed r s.

  Lemma under_dominates : forall n a b, reach G entry a -> under idom n a b = Some true -> dominates G entry b a.
  Proof.
    induction n as [|n IH]; intros a b Ra U; cbn in U; [discriminate|]. destruct (Nat.eqb_spec a b) as [->|Nab].
    - intros l W. exact (walk_end _ _ _ _ W).
    - destruct (Nat.eq_dec a entry) as [->|Ne].
      + rewrite Hentry, Nat.eqb_refl in U. discriminate.
      + destruct (Hidom a Ra Ne) as (d & Ed & Rd & _ & D & _). rewrite Ed in U. destruct (Nat.eqb a d); [discriminate|].
        intros l W. destruct (walk_prefix _ _ _ _ W d (D l W)) as (l1 & W1 & I1). apply I1. exact (IH d b Rd U l1 W1).
  Qed.
  Lemma C46_result : cse_ready own g entry exit is_global in_memory (fun r n => forall x w, other r (Some x) None w = other n (Some x) None w) (cs_ins s) (cs_code s) /\
    below g entry is_global in_memory truth get put effect other (mkcse (mkfold ins (fun _ => false) init) code (use_chains ins code order)) s.
  Proof.
    refine (optimize_all_ok own g entry exit is_global in_memory _ idom fuel Hfuel (fun a b => under_dominates fuel a b) truth get put effect other _ order ins code init r s Ho _ E).
    - intros a n A. exact A.
    - constructor; assumption.
  Qed.
  (** Every execution is the same, block by block, with the same effect on the world. *)
  Theorem C46_same_execution_partial (k : nat) (st : (nat -> Z) * world) (w : world) :
    runs truth get put effect (computes other ins init) in_memory ins g code k entry st w <->
    runs truth get put effect (computes other (cs_ins s) (fo_init (cs_fold s))) in_memory (cs_ins s) g (cs_code s) k entry st w.
  Proof. exact (b_goes _ _ _ _ _ _ _ _ _ _ _ (proj2 C46_result) k st w). Qed.
  (** With dead code elimination after it: all of optimize(). *)
  Theorem C46_optimize_partial
    (C : forall a b, reach G a exit -> In b (G a) -> reach G b exit) (Hno : NoDup order)
    blocks V vis o T fuel' sweeps steps hops g' code'
    (R : ready (to_cfg g) exit blocks V vis o T fuel' sweeps)
    (Ed : eliminate fuel' sweeps steps hops (cs_ins s) own (cs_code s) is_global order g exit V vis o T = Done (g', code'))
    (k : nat) (st : (nat -> Z) * world) (w : world) :
    runs truth get put effect (computes other ins init) in_memory ins g code k entry st w ->
    exists k', runs truth get put effect (computes other (cs_ins s) (fo_init (cs_fold s))) in_memory (cs_ins s) g' code' k' entry st w.
  Proof.
    intros Q. apply C46_same_execution_partial in Q.
    exact (C41_same_effects (cs_ins s) own (cs_code s) g entry exit is_global in_memory (q_form _ _ _ _ _ _ _ _ _ (proj1 C46_result)) C order Ho Hno
      blocks V vis o T fuel' sweeps steps hops R g' code' Ed Z world truth get put effect _ st k w Q).
  Qed.
End Repeats.
Print Assumptions C46_same_execution_partial.
Print Assumptions C46_optimize_partial.

(** int f(char *a, int i) { char x = a[i]; return x + a[i]; }   The second reading becomes a copy of the first. *)
Definition rr_ins (i : nat) : insn :=
  match i with
  | 0 => mkinsn OP_add (Some 2) (Some 0) (Some 1)
  | 1 => mkinsn OP_read (Some 3) (Some 2) None
  | 2 => mkinsn OP_add (Some 4) (Some 0) (Some 1)
  | 3 => mkinsn OP_read (Some 5) (Some 4) None
  | 4 => mkinsn OP_add (Some 6) (Some 3) (Some 5)
  | _ => mkinsn OP_return None (Some 6) None
  end%nat.
Example C46_example : result_is (optimize_all none own0 idom0 9 [0; 1]%nat rr_ins (one_block 6) (fun _ => 0)) [0; 1; 3; 4; 5]%nat
  (map (upd rr_ins 3%nat (mkinsn OP_assign (Some 5) (Some 3) None)%nat) [0; 1; 3; 4; 5]%nat) [0; 1; 3; 4; 5]%nat [] [].
Proof. vm_compute. repeat split. Qed.
Definition rr_graph : egraph := made [(0, NEXT, 1)]%nat.
Lemma rr_edges a b : In b (succs (to_cfg rr_graph) a) -> a = 0%nat /\ b = 1%nat.
Proof. destruct a as [|[|a]]; vm_compute; intuition congruence. Qed.
Lemma rr_reach b : reach (succs (to_cfg rr_graph)) 0 b <-> In b [0; 1]%nat.
Proof.
  split.
  - intros W. apply (reach_closed (succs (to_cfg rr_graph)) (fun b => In b [0; 1]%nat)) with (2 := W); [|cbn; tauto].
    intros a _ c I. apply rr_edges in I as [_ ->]. cbn. tauto.
  - intros [<-|[<-|[]]]; [apply reach_refl|apply reach_edge; vm_compute; tauto].
Qed.
Lemma rr_walk l b : walk (succs (to_cfg rr_graph)) 0 l b -> l = [0]%nat /\ b = 0%nat \/ l = [0; 1]%nat /\ b = 1%nat.
Proof.
  intros W. assert (H : forall a, a = 0%nat -> walk (succs (to_cfg rr_graph)) a l b -> l = [0]%nat /\ b = 0%nat \/ l = [0; 1]%nat /\ b = 1%nat); [|exact (H _ eq_refl W)].
  clear W. intros a E W. induction W as [a|a l x y W IH I]; [left; subst; auto|right]. apply rr_edges in I as [-> ->].
  destruct (IH E) as [[-> _]|[_ Z]]; [auto|discriminate].
Qed.
Lemma rr_code b l1 i l2 : one_block 6 b = l1 ++ i :: l2 -> b = 0%nat /\ l1 = seq 0 i /\ In i [0; 1; 2; 3; 4; 5]%nat.
Proof.
  destruct b as [|b]; [|destruct l1; discriminate]. intros E. split; [reflexivity|]. cbn in E.
  do 6 (destruct l1 as [|? l1]; [cbn in E; injection E as E0 E1; rewrite <- E0; cbn; tauto|cbn [app] in E; injection E as <- E]). destruct l1; discriminate.
Qed.
Lemma rr_here b i : In i (one_block 6 b) -> b = 0%nat /\ In i [0; 1; 2; 3; 4; 5]%nat.
Proof. destruct b as [|b]; [|intros []]. intros I. split; [reflexivity|]. exact I. Qed.
Lemma rr_pairs p r base idx : sum_read rr_ins (one_block 6) (to_cfg rr_graph) 0 none p r base idx -> (((p = 0 /\ r = 1) \/ (p = 2 /\ r = 3)) /\ base = 0 /\ idx = 1)%nat.
Proof.
  intros (b & l1 & l2 & _ & Ec & Op & Or & R1 & R2 & _). destruct (rr_code b l1 p (r :: l2) Ec) as (-> & El & J).
  rewrite El in Ec. cbn in J. destruct J as [<-|[<-|[<-|[<-|[<-|[<-|[]]]]]]]; cbn in Op; try discriminate; cbn in Ec; injection Ec as <- _; cbn in Or; try discriminate; cbn in R1, R2; split; try (split; congruence); tauto.
Qed.
Example C46_premises (world : Type) (other : nat -> option Z -> option Z -> world -> Z) (Hsame : forall x w, other 1%nat (Some x) None w = other 3%nat (Some x) None w) :
  let G := succs (to_cfg rr_graph) in
  function_ok rr_ins own0 (one_block 6) rr_graph 0 1 none none /\ (forall b, NoDup (one_block 6 b)) /\ strict_reads rr_ins (one_block 6) (to_cfg rr_graph) 0 none /\
  repeats_ok rr_ins own0 (one_block 6) (to_cfg rr_graph) 0 none none (fun r n => forall x w, other r (Some x) None w = other n (Some x) None w) /\
  (forall b, In b [0; 1]%nat <-> reach G 0 b) /\ idom0 0%nat = Some 0%nat /\
  (forall b, reach G 0 b -> b <> 0%nat -> exists d, idom0 b = Some d /\ reach G 0 d /\ immediate_dominator G 0 d b).
Proof.
  intros G. split; [|split; [|split; [|split; [|split; [|split]]]]].
  - constructor.
    + apply made_linked.
    + split; reflexivity.
    + intros b W. apply rr_reach in W as [<-|[<-|[]]]; [apply reach_edge; vm_compute; tauto|apply reach_refl].
    + intros b W. apply rr_reach in W as [<-|[<-|[]]].
      * apply (shape_next _ _ _ _ 1); try reflexivity. intros i J. apply rr_here in J as [_ J]. cbn in J. intuition (subst; discriminate).
      * apply shape_end; try reflexivity. intros i [].
    + intros b i J. apply rr_here in J as [-> _]. reflexivity.
    + intros b c i j v _ _ Ii Ij Wi Wj _. left. apply rr_here in Ii as [_ Ii]. apply rr_here in Ij as [_ Ij]. cbn in Ii, Ij. intuition (subst; cbn in Wi, Wj; congruence).
    + intros b l1 p l2 _ Ec Op. destruct (rr_code b l1 p l2 Ec) as (_ & _ & J). cbn in J. intuition (subst; discriminate).
    + intros i Op. do 5 (destruct i as [|i]; [discriminate|]). discriminate.
    + intros v M. discriminate.
  - intros [|b]; [apply seq_NoDup|constructor].
  - intros b c i j v _ _ Ii Ij _ Rv Wv _. intros b' l1 l2 l Ec W. destruct (rr_code b' l1 i l2 Ec) as (-> & -> & _).
    apply rr_here in Ii as [_ Ii]. apply rr_here in Ij as [_ Ij]. left. cbn in Ii, Ij.
    destruct Ii as [<-|[<-|[<-|[<-|[<-|[<-|[]]]]]]]; cbn in Rv; destruct Rv as [Rv|Rv]; try discriminate; injection Rv as <-;
      destruct Ij as [<-|[<-|[<-|[<-|[<-|[<-|[]]]]]]]; try discriminate; cbn; tauto.
  - constructor.
    + intros p r i n base idx Ne P1 P2. apply rr_pairs in P1 as ([[-> ->]|[-> ->]] & _); apply rr_pairs in P2 as ([[-> ->]|[-> ->]] & _); try contradiction; split;
        try (intros; auto; symmetry; auto); eexists; (split; [reflexivity|split; [reflexivity|split; [reflexivity|]]]);
        intros c k _ Jk Rk; apply rr_here in Jk as [_ Jk]; cbn in Jk; intuition (subst; destruct Rk as [Rk|Rk]; cbn in Rk; congruence).
    + intros p r i n base idx Ne P1 P2 _ O t1 t2 (b & l1 & l2 & l & Ec & W & Et) Nr k Jk.
      apply rr_pairs in P1 as ([[-> ->]|[-> ->]] & -> & ->); apply rr_pairs in P2 as ([[-> ->]|[-> ->]] & _); try contradiction.
      * destruct (rr_code b l1 2 l2 Ec) as (-> & -> & _). destruct (rr_walk _ _ W) as [[El _]|[_ Z]]; [|discriminate].
        destruct l as [|x l]; [|destruct l; discriminate]. cbn in Et. destruct t1 as [|x [|y t1]]; cbn in Et; try discriminate.
        2: { destruct t1; discriminate. }
        assert (t2 = []) by congruence. subst t2.
        cbn in Jk. destruct Jk as [<-|[<-|[]]]; (split; [reflexivity|]); cbn; intros d Q; injection Q as <-; repeat split; discriminate.
      * exfalso. destruct (O eq_refl) as (m1 & m2 & m3 & Em). cbn [own0] in Em.
        replace (m1 ++ 2%nat :: 3%nat :: m2 ++ 0%nat :: m3) with ((m1 ++ 2%nat :: 3%nat :: m2) ++ 0%nat :: m3) in Em by (rewrite <- app_assoc; reflexivity).
        destruct (rr_code _ _ _ _ Em) as (_ & Z & _). destruct m1; discriminate.
  - intros b. symmetry. apply rr_reach.
  - reflexivity.
  - intros b W Nb. apply rr_reach in W as [<-|[<-|[]]]; [contradiction|]. exists 0%nat. split; [reflexivity|]. split; [apply reach_refl|]. split; [discriminate|]. split.
    + intros l W. exact (walk_start _ _ _ _ W).
    + intros a Na D l W. destruct (rr_walk _ _ W) as [[-> _]|[_ Z]]; [|discriminate].
      assert (W1 : walk G 0 [0; 1]%nat 1) by (apply (walk_step _ 0%nat [0]%nat 0%nat 1%nat); [apply walk_one|vm_compute; tauto]).
      apply D in W1. cbn in W1 |- *. intuition congruence.
Qed.
