(** C39: liveness. *)
From Verif.Mid Require Import Cfg Graph CfgProofs Insn Live LiveSpec LiveProofs.
From Verif.Properties Require Import CfgProps.

(** [g], [code]: any function; [order]: the blocks from which the exit can be reached, chained by [next] from the exit
    (what build_reversed_rpo makes, C37_reversed_order); [blocks]: the blocks reachable from the entry; [vars]: the variables
    read in them.  live_gen and live_out start empty, live_kill is whatever earlier passes left. *)
Theorem C39_liveness g code is_global entry exit params blocks vars order next vis V s fuel n :
  (forall b, reach (succs g) entry b -> In b blocks) ->
  (forall b, reach (succs g) entry b -> vis b = V) ->
  chain next (Some exit) order ->
  (forall b, In b order <-> reach (succs g) b exit) ->
  (forall b, reach (succs g) entry b -> reach (succs g) b exit) ->
  (forall b, reach (succs g) entry b -> ~ In entry (succs g b)) ->
  (forall b, l_gen s b = [] /\ l_out s b = []) ->
  (forall b i v, reach (succs g) entry b -> In i (code b) -> reads i v -> In v vars) ->
  (length blocks <= fuel)%nat -> (length order < fuel)%nat -> (length order * length vars < n)%nat ->
  exists vis' s',
    liveness_analysis g code is_global next fuel n entry exit params V vis s = Some (V + 2, vis', s') /\
    (forall b v, reach (succs g) entry b -> is_global v = false -> needed (succs g) code v b -> In v (l_out s' b)) /\
    (forall b v, reach (succs g) entry b -> In v (l_out s' b) -> needed (succs g) code v b) /\
    (forall b k i v, reach (succs g) entry b -> nth_error (code b) k = Some i -> reads i v -> Z.of_nat k <= l_cons s' v) /\
    (forall b v, reach (succs g) entry b -> (In v (l_kill s' b) <-> (b = entry /\ In v params) \/ exists i, In i (code b) /\ writes i v)).
Proof.
  intros HU Hv HC HO HE Hentry Hs Hvars F1 F2 F3.
  destruct (traverse_pre_all (succs g) entry blocks vis V fuel bb_reset_live_kill_idx s HU Hv F1) as (v1 & D1 & T1 & N1 & A1 & Hv1).
  destruct (fold_reset D1 s) as (R1 & R2 & R3 & R4 & R5 & R6). set (s1 := fold bb_reset_live_kill_idx D1 s) in *.
  destruct (fold_params code is_global entry params s1) as (P1 & P2 & P3 & P4 & P5 & P6).
  set (s2 := fold_left (fun s v => bb_add_killed_var entry v s) params s1) in *.
  destruct (traverse_pre_all (succs g) entry blocks v1 (V + 1) fuel (bb_solve_locals code is_global) s2 HU Hv1 F1) as (v2 & D2 & T2 & N2 & A2 & Hv2).
  pose proof (fold_locals code is_global D2 N2 s2) as [L1 L2 L3 L4 L5 L9 L6 L7 L8]. set (s3 := fold (bb_solve_locals code is_global) D2 s2) in *.
  replace (V + 1 + 1) with (V + 2) in * by lia.
  assert (O3 : forall b, l_out s3 b = []) by (intros b; rewrite L2, P3, R3; apply Hs).
  assert (G2 : forall b, l_gen s2 b = []) by (intros b; rewrite P1, R1; apply Hs).
  assert (Dec : forall b v, In v (l_gen s3 b) -> In b D2).
  { intros b v I. destruct (in_dec Nat.eq_dec b D2) as [Q|Q]; [exact Q|]. rewrite (proj1 (L3 b Q)), G2 in I. destruct I. }
  assert (Kill : forall b, reach (succs g) entry b -> b <> entry -> l_kill s2 b = []).
  { intros b Rb Nb. rewrite P5 by exact Nb. apply R5. apply A1. exact Rb. }
  assert (NE : forall b c, reach (succs g) entry b -> In c (succs g b) -> c <> entry).
  { intros b c Rb E ->. exact (Hentry b Rb E). }
  set (Cr := fun b => reach (succs g) entry b). set (Pr := fun b v => needed (succs g) code v b).
  assert (HCr : forall b c, Cr b -> In c (succs g b) -> Cr c) by (intros b c Rb E; eapply reach_step; eassumption).
  assert (Cl : closed g Cr Pr s3).
  { intros b v Rb (c & E & [I|(I & Rc & Nk)]).
    - destruct (L9 c v (Dec c v I) I) as [Q|Q]; [rewrite G2 in Q; destruct Q|]. eapply needed_next; eassumption.
    - eapply needed_later; [exact E| |exact I]. intros i Ii Wr. apply Nk. apply L6; [apply A2; exact Rc|]. right. eauto. }
  assert (Gd : good g vars Cr Pr s3).
  { split.
    - intros b. rewrite O3. constructor.
    - intros b v I. rewrite O3 in I. destruct I.
    - intros b v I. destruct (L4 b v (Dec b v I) I) as [Q|[Q _]]; [rewrite G2 in Q; destruct Q|].
      apply in_flat_map in Q as (i & Ii & Q). apply (used_reads code is_global) in Q. apply (Hvars b i v); try assumption. apply A2. apply (Dec b v I).
    - intros b v _ I. rewrite O3 in I. destruct I.
    - intros b v I. rewrite O3 in I. destruct I. }
  destruct (loop_good g code is_global vars Cr Pr HCr next fuel exit order HC F2 n s3 Cl Gd ltac:(lia)) as (s4 & E4 & Gd4 & E5 & E6 & E7 & Fix).
  exists v2, s4. split; [|split; [|split; [|split]]].
  - unfold liveness_analysis. rewrite T1. fold s1. fold s2. rewrite T2. fold s3. rewrite E4. reflexivity.
  - intros b v Rb Gv Nd. induction Nd as [b c E Ex|b c E Un Nd IH].
    + apply Fix; [apply HO, HE, Rb|]. exists c. split; [exact E|]. left. rewrite E5. pose proof (reach_step _ _ _ _ Rb E) as Rc.
      apply L5; [apply A2; exact Rc|exact Ex|exact Gv|]. rewrite (Kill c Rc (NE b c Rb E)). intros [].
    + pose proof (reach_step _ _ _ _ Rb E) as Rc. apply Fix; [apply HO, HE, Rb|]. exists c. split; [exact E|]. right.
      split; [apply IH; exact Rc|]. rewrite E6. intros K. apply L6 in K; [|apply A2; exact Rc].
      rewrite (Kill c Rc (NE b c Rb E)) in K. destruct K as [[]|(i & Ii & Wr)]. exact (Un i Ii Wr).
  - intros b v Rb I. apply (gd_least _ _ _ _ _ Gd4 b v Rb I).
  - intros b k i v Rb Ek Rd. rewrite E7. apply (L8 b k i v); [apply A2; exact Rb|exact Ek|exact Rd].
  - intros b v Rb. rewrite E6, L6 by (apply A2; exact Rb). destruct (Nat.eq_dec b entry) as [->|N].
    + rewrite P6, R5 by (apply A1; exact Rb). cbn. tauto.
    + rewrite (Kill b Rb N). cbn. tauto.
Qed.
Print Assumptions C39_liveness.

(** A loop: 0: i = 0, s = 0, n = param; 1: t = i < n, branch t; 2: s = s + i, i = i + 1; 3: return s.
    Variables: i 0, s 1, n 2, t 3; 4 is a global. *)
Definition loop4 : cfg := of_edges [ (0, (Some 1, None, None)); (1, (None, Some 2, Some 3)); (2, (Some 1, None, None)); (3, (Some 4, None, None)) ]%nat.
Definition loop4_code (b : nat) : list insn :=
  match b with
  | 0 => [mkinsn OP_load_constant (Some 0) None None; mkinsn OP_load_constant (Some 1) None None]
  | 1 => [mkinsn OP_lt (Some 3) (Some 0) (Some 2); mkinsn OP_branch None (Some 3) None]
  | 2 => [mkinsn OP_add (Some 1) (Some 1) (Some 0); mkinsn OP_add (Some 0) (Some 0) (Some 4)]
  | 3 => [mkinsn OP_return None (Some 1) None]
  | _ => []
  end%nat.
Definition no_live : live := mklive (fun _ => []) (fun _ => []) (fun _ => []) (fun _ => []) (fun _ => -1).
Example C39_loop :
  match build_reversed_rpo 9 loop4 4 0 (fun _ => 0) no_order with
  | Some (_, vis, o) =>
    match liveness_analysis loop4 loop4_code (Nat.eqb 4) (o_next o) 9 40 0 4 [2]%nat 3 vis no_live with
    | Some (_, _, s) => map (l_out s) [0; 1; 2; 3]%nat = [[1; 0; 2]; [2; 1; 0]; [1; 0; 2]; []]%nat
    | None => False
    end
  | None => False
  end.
Proof. vm_compute. reflexivity. Qed.
Example C39_premises :
  (forall b, reach (succs loop4) 0 b -> In b [0; 1; 2; 3; 4]%nat) /\
  (forall b, reach (succs loop4) 0 b -> reach (succs loop4) b 4) /\
  (forall b, reach (succs loop4) 0 b -> ~ In 0%nat (succs loop4 b)) /\
  needed (succs loop4) loop4_code 2 2.
Proof.
  assert (H : forall b, reach (succs loop4) 0 b -> In b [0; 1; 2; 3; 4]%nat).
  { intros b R. assert (H : forall a, reach (succs loop4) a b -> In a [0; 1; 2; 3; 4]%nat -> In b [0; 1; 2; 3; 4]%nat).
    { clear. intros a R. induction R as [a|a b c R IH E]; [auto|]. intros I. specialize (IH I).
      repeat destruct IH as [<-|IH]; try contradiction; vm_compute in E; repeat destruct E as [<-|E]; try contradiction; cbn; tauto. }
    apply (H 0%nat R). cbn. tauto. }
  split; [exact H|]. split; [|split].
  - assert (R3 : reach (succs loop4) 3 4) by (eapply reach_front; [|apply reach_refl]; vm_compute; tauto).
    assert (R1 : reach (succs loop4) 1 4) by (eapply reach_front; [|exact R3]; vm_compute; tauto).
    assert (R0 : reach (succs loop4) 0 4) by (eapply reach_front; [|exact R1]; vm_compute; tauto).
    assert (R2 : reach (succs loop4) 2 4) by (eapply reach_front; [|exact R1]; vm_compute; tauto).
    intros b R. specialize (H b R). repeat destruct H as [<-|H]; try assumption; [apply reach_refl|destruct H].
  - intros b R I. specialize (H b R). repeat destruct H as [<-|H]; try contradiction; vm_compute in I; repeat destruct I as [[=]|I]; contradiction.
  - apply needed_next with (c := 1%nat); [vm_compute; tauto|].
    exists [], (mkinsn OP_lt (Some 3%nat) (Some 0%nat) (Some 2%nat)), [mkinsn OP_branch None (Some 3%nat) None].
    repeat split; [right; reflexivity|intros i []].
Qed.
