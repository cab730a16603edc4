(** C20 (#define / #undef) and C21 (scopes). *)
From Verif.Base Require Import Int32.
From Verif.Data Require Import Hashmap Names.
From Verif.Properties Require Import HashmapProps.

(** *** C20 specification: the definitions of one name in force, oldest first *)
Inductive directive (V : Type) := Define (name : str) (v : V) | Undef (name : str).
Arguments Define {V}. Arguments Undef {V}.

Definition same (a b : str) : bool := if list_eq_dec Z.eq_dec a b then true else false.
Fixpoint in_force {V} (q : list V) (h : list (directive V)) (name : str) : list V :=
  match h with
  | [] => q
  | Define n v :: r => in_force (if same n name then q ++ [v] else q) r name
  | Undef n :: r => in_force (if same n name then tl q else q) r name
  end.

Fixpoint run_alias (t : list alias) (h : list (directive str)) : list alias :=
  match h with
  | [] => t
  | Define n v :: r => run_alias (add_alias t n v) r
  | Undef n :: r => run_alias (fst (remove_alias t n)) r
  end.
Fixpoint run_macro {M} (t : list (macro M)) (h : list (directive M)) : list (macro M) :=
  match h with
  | [] => t
  | Define n v :: r => run_macro (add_macro t n v) r
  | Undef n :: r => run_macro (fst (remove_macro t n)) r
  end.

(** live values of a name in a table *)
Definition live_a (t : list alias) (name : str) : list str :=
  map al_value (filter (fun a => negb (al_disabled a) && streqb name (al_name a)) t).
Definition live_m {M} (t : list (macro M)) (name : str) : list M :=
  map ma_body (filter (fun a => negb (ma_disabled a) && streqb name (ma_name a)) t).

Lemma same_streqb a b : same a b = streqb b a.
Proof.
  unfold same. rewrite streqb_dec. destruct (list_eq_dec Z.eq_dec a b), (list_eq_dec Z.eq_dec b a); congruence.
Qed.

Lemma find_live_a t n : find_alias t n = hd_error (live_a t n).
Proof.
  induction t as [|a t IH]; [reflexivity|]. unfold live_a in *. cbn [find_alias filter].
  destruct (negb (al_disabled a) && streqb n (al_name a)); [reflexivity|exact IH].
Qed.
Lemma add_live_a t n v m : live_a (add_alias t n v) m = if same n m then live_a t m ++ [v] else live_a t m.
Proof.
  unfold live_a, add_alias. rewrite filter_app, map_app. cbn. rewrite same_streqb.
  destruct (streqb m n); [reflexivity|apply app_nil_r].
Qed.
Lemma remove_live_a t n m :
  live_a (fst (remove_alias t n)) m = (if same n m then tl (live_a t m) else live_a t m) /\
  (snd (remove_alias t n) = true <-> live_a t n <> []).
Proof.
  induction t as [|a t [IH1 IH2]].
  - cbn. split; [destruct (same n m); reflexivity|]. split; [discriminate|intros H; contradiction].
  - cbn [remove_alias]. destruct (negb (al_disabled a) && streqb n (al_name a)) eqn:E.
    + apply andb_true_iff in E. destruct E as [E1 E2]. cbn [fst snd]. split.
      * unfold live_a. cbn [filter al_disabled al_name negb andb].
        rewrite E1. cbn [andb]. apply streqb_eq in E2. rewrite <- E2.
        destruct (same n m) eqn:Es; unfold same in Es.
        -- destruct (list_eq_dec Z.eq_dec n m) as [->|]; [|discriminate].
           assert (streqb m m = true) as -> by (apply streqb_eq; reflexivity). reflexivity.
        -- destruct (list_eq_dec Z.eq_dec n m) as [|N]; [discriminate|].
           destruct (streqb m n) eqn:K; [apply streqb_eq in K; congruence|reflexivity].
      * split; [|reflexivity]. intros _. unfold live_a. cbn [filter]. rewrite E1, E2. discriminate.
    + destruct (remove_alias t n) as [r b]. cbn [fst snd] in *. split.
      * unfold live_a in *. cbn [filter].
        destruct (negb (al_disabled a) && streqb m (al_name a)) eqn:E'; [|exact IH1].
        cbn [map]. rewrite IH1. destruct (same n m) eqn:Es; [|reflexivity]. unfold same in Es.
        destruct (list_eq_dec Z.eq_dec n m) as [->|]; [congruence|discriminate].
      * rewrite IH2. unfold live_a. cbn [filter]. rewrite E. tauto.
Qed.

Theorem C20_alias : forall h name,
  find_alias (run_alias [] h) name = hd_error (in_force [] h name) /\
  (snd (remove_alias (run_alias [] h) name) = true <-> in_force [] h name <> []).
Proof.
  intros h name.
  assert (G : forall h t, live_a (run_alias t h) name = in_force (live_a t name) h name).
  { clear h. induction h as [|[n v|n] h IH]; intros t; cbn [run_alias in_force]; [reflexivity| |].
    - rewrite IH, add_live_a. reflexivity.
    - rewrite IH, (proj1 (remove_live_a t n name)). reflexivity. }
  specialize (G h []). cbn in G. rewrite <- G. split; [apply find_live_a|].
  apply (remove_live_a (run_alias [] h) name name).
Qed.
Print Assumptions C20_alias.

Lemma find_live_m {M} (t : list (macro M)) n : find_macro t n = hd_error (live_m t n).
Proof.
  induction t as [|a t IH]; [reflexivity|]. unfold live_m in *. cbn [find_macro filter].
  destruct (negb (ma_disabled a) && streqb n (ma_name a)); [reflexivity|exact IH].
Qed.
Lemma add_live_m {M} (t : list (macro M)) n v m :
  live_m (add_macro t n v) m = if same n m then live_m t m ++ [v] else live_m t m.
Proof.
  unfold live_m, add_macro. rewrite filter_app, map_app. cbn. rewrite same_streqb.
  destruct (streqb m n); [reflexivity|apply app_nil_r].
Qed.
Lemma remove_live_m {M} (t : list (macro M)) n m :
  live_m (fst (remove_macro t n)) m = (if same n m then tl (live_m t m) else live_m t m) /\
  (snd (remove_macro t n) = true <-> live_m t n <> []).
Proof.
  induction t as [|a t [IH1 IH2]].
  - cbn. split; [destruct (same n m); reflexivity|]. split; [discriminate|intros H; contradiction].
  - cbn [remove_macro]. destruct (negb (ma_disabled a) && streqb n (ma_name a)) eqn:E.
    + apply andb_true_iff in E. destruct E as [E1 E2]. cbn [fst snd]. split.
      * unfold live_m. cbn [filter ma_disabled ma_name negb andb].
        rewrite E1. cbn [andb]. apply streqb_eq in E2. rewrite <- E2.
        destruct (same n m) eqn:Es; unfold same in Es.
        -- destruct (list_eq_dec Z.eq_dec n m) as [->|]; [|discriminate].
           assert (streqb m m = true) as -> by (apply streqb_eq; reflexivity). reflexivity.
        -- destruct (list_eq_dec Z.eq_dec n m) as [|N]; [discriminate|].
           destruct (streqb m n) eqn:K; [apply streqb_eq in K; congruence|reflexivity].
      * split; [|reflexivity]. intros _. unfold live_m. cbn [filter]. rewrite E1, E2. discriminate.
    + destruct (remove_macro t n) as [r b]. cbn [fst snd] in *. split.
      * unfold live_m in *. cbn [filter].
        destruct (negb (ma_disabled a) && streqb m (ma_name a)) eqn:E'; [|exact IH1].
        cbn [map]. rewrite IH1. destruct (same n m) eqn:Es; [|reflexivity]. unfold same in Es.
        destruct (list_eq_dec Z.eq_dec n m) as [->|]; [congruence|discriminate].
      * rewrite IH2. unfold live_m. cbn [filter]. rewrite E. tauto.
Qed.

Theorem C20_macro : forall M (h : list (directive M)) name,
  find_macro (run_macro [] h) name = hd_error (in_force [] h name) /\
  (snd (remove_macro (run_macro [] h) name) = true <-> in_force [] h name <> []).
Proof.
  intros M h name.
  assert (G : forall h (t : list (macro M)), live_m (run_macro t h) name = in_force (live_m t name) h name).
  { clear h. induction h as [|[n v|n] h IH]; intros t; cbn [run_macro in_force]; [reflexivity| |].
    - rewrite IH, add_live_m. reflexivity.
    - rewrite IH, (proj1 (remove_live_m t n name)). reflexivity. }
  specialize (G h []). cbn in G. rewrite <- G. split; [apply find_live_m|].
  apply (remove_live_m (run_macro [] h) name name).
Qed.
Print Assumptions C20_macro.

(** Consequences in plain terms *)
Corollary C20_define_then_found : forall h name v,
  in_force [] h name = [] -> find_alias (run_alias [] (h ++ [Define name v])) name = Some v.
Proof.
  intros h name v H. rewrite (proj1 (C20_alias _ _)).
  assert (G : forall h q, in_force q (h ++ [Define name v]) name = in_force q h name ++ [v]).
  { clear. induction h as [|[n w|n] h IH]; intros q; cbn [app in_force]; auto.
    unfold same. destruct (list_eq_dec Z.eq_dec name name); [reflexivity|contradiction]. }
  rewrite G, H. reflexivity.
Qed.
Print Assumptions C20_define_then_found.

(** redefinition without #undef: the OLD value stays in force, and one #undef uncovers
    the newer one (ISO C: a redefinition must be identical, and #undef removes the name) *)
Theorem C20_redefinition_refuted : forall name v w,
  find_alias (run_alias [] [Define name v; Define name w]) name = Some v /\
  find_alias (run_alias [] [Define name v; Define name w; Undef name]) name = Some w.
Proof.
  intros name v w. rewrite !(proj1 (C20_alias _ _)). cbn. unfold same.
  destruct (list_eq_dec Z.eq_dec name name); [split; reflexivity|contradiction].
Qed.
Print Assumptions C20_redefinition_refuted.

Example C20_case : find_alias (run_alias [] [Define [65] [1]; Define [66] [2]; Undef [65]; Define [65] [3]]) [65] = Some [3]
  /\ find_alias (run_alias [] [Define [65] [1]; Undef [65]]) [65] = None.
Proof. split; reflexivity. Qed.

(** *** C21 specification *)
(** [first l x i]: position [i] is the first occurrence of [x] in [l] *)
Definition first (l : list str) (x : str) (i : nat) : Prop :=
  nth_error l i = Some x /\ forall j, (j < i)%nat -> nth_error l j <> Some x.
Definition declared (l : list str) (x : str) : Prop := In x l.

(** what a name denotes in a scope *)
Definition denotes (chain : list (list str)) (params : option (list str)) (globals : list str) (x : str)
    (r : option var_ref) : Prop :=
  match r with
  | Some (Local d i) => exists b, nth_error chain d = Some b /\ first b x i /\
      forall d' b', (d' < d)%nat -> nth_error chain d' = Some b' -> ~ declared b' x
  | Some (Param i) => (forall b, In b chain -> ~ declared b x) /\
      exists ps, params = Some ps /\ first ps x i
  | Some (Global i) => (forall b, In b chain -> ~ declared b x) /\
      (forall ps, params = Some ps -> ~ declared ps x) /\ first globals x i
  | None => (forall b, In b chain -> ~ declared b x) /\
      (forall ps, params = Some ps -> ~ declared ps x) /\ ~ declared globals x
  end.

Lemma index_of_spec l x : match index_of l x with
  | Some i => first l x i | None => ~ declared l x end.
Proof.
  induction l as [|y l IH]; cbn [index_of]; [intros []|].
  destruct (streqb y x) eqn:E.
  - apply streqb_eq in E. subst y. split; [reflexivity|intros j Hj; lia].
  - assert (y <> x) by (intros ->; rewrite (proj2 (streqb_eq x x) eq_refl) in E; discriminate).
    destruct (index_of l x) as [i|]; cbn [option_map].
    + destruct IH as [I1 I2]. split; [exact I1|]. intros [|j] Hj; cbn; [congruence|]. apply I2. lia.
    + intros [K|K]; [contradiction|apply IH; exact K].
Qed.

Lemma in_blocks_spec chain : forall d x, match find_in_blocks d chain x with
  | Some (Local d' i) => exists k b, d' = (d + k)%nat /\ nth_error chain k = Some b /\ first b x i /\
       forall j b', (j < k)%nat -> nth_error chain j = Some b' -> ~ declared b' x
  | Some _ => False
  | None => forall b, In b chain -> ~ declared b x
  end.
Proof.
  induction chain as [|b chain IH]; intros d x; cbn [find_in_blocks]; [intros b []|].
  pose proof (index_of_spec b x) as Sb. destruct (index_of b x) as [i|].
  - exists 0%nat, b. split; [lia|]. split; [reflexivity|]. split; [exact Sb|]. intros; lia.
  - specialize (IH (S d) x). destruct (find_in_blocks (S d) chain x) as [[d' i| |]|]; try exact IH.
    + destruct IH as (k & b0 & E & N & F & R). exists (S k), b0. split; [lia|]. split; [exact N|].
      split; [exact F|]. intros [|j] b' Hj Hb; cbn in Hb.
      * inversion Hb; subst. exact Sb.
      * apply (R j b'); [lia|exact Hb].
    + intros b' [<-|K]; [exact Sb|apply IH; exact K].
Qed.

Theorem C21_scope : forall chain params globals x,
  denotes chain params globals x (find_var chain params globals x).
Proof.
  intros chain params globals x. unfold find_var, find_local_var.
  pose proof (in_blocks_spec chain 0 x) as Sb.
  destruct (find_in_blocks 0 chain x) as [[d i| |]|]; [|contradiction|contradiction|].
  - destruct Sb as (k & b & -> & N & F & R). cbn. exists b. auto.
  - pose proof (index_of_spec globals x) as G. unfold find_global_var.
    destruct params as [ps|].
    + pose proof (index_of_spec ps x) as P. destruct (index_of ps x) as [i|]; cbn [option_map].
      * split; [exact Sb|]. exists ps. auto.
      * destruct (index_of globals x) as [i|]; cbn [option_map denotes].
        -- repeat split; auto; try (intros ps' K; inversion K; subst; exact P); apply G.
        -- repeat split; auto. intros ps' K; inversion K; subst; exact P.
    + destruct (index_of globals x) as [i|]; cbn [option_map denotes].
      * repeat split; auto; try (intros ps' K; discriminate); apply G.
      * repeat split; auto. intros ps' K; discriminate.
Qed.
Print Assumptions C21_scope.

(** the meaning is unique, so the theorem above pins find_var down completely *)
Theorem C21_unique : forall chain params globals x r1 r2,
  denotes chain params globals x r1 -> denotes chain params globals x r2 -> r1 = r2.
Proof.
  assert (FU : forall l x i j, first l x i -> first l x j -> i = j).
  { intros l x i j [A1 A2] [B1 B2]. destruct (Nat.lt_trichotomy i j) as [H|[H|H]]; auto.
    - exfalso. apply (B2 i H A1). - exfalso. apply (A2 j H B1). }
  assert (FD : forall l x i, first l x i -> declared l x) by (intros l x i [A _]; eapply nth_error_In; eauto).
  intros chain params globals x r1 r2 H1 H2.
  destruct r1 as [[d i|i|i]|], r2 as [[d' i'|i'|i']|]; cbn in H1, H2; try reflexivity;
  repeat match goal with
  | H : exists _, _ |- _ => destruct H
  | H : _ /\ _ |- _ => destruct H
  end; subst;
  try (exfalso; match goal with
       | N : forall b, In b ?c -> ~ declared b x, E : nth_error ?c _ = Some ?b, F : first ?b x _ |- _ =>
           exact (N b (nth_error_In _ _ E) (FD _ _ _ F))
       | N : forall ps, Some _ = Some ps -> _, F : first ?b x _ |- _ => exact (N b eq_refl (FD _ _ _ F))
       | N : ~ declared ?g x, F : first ?g x _ |- _ => exact (N (FD _ _ _ F))
       end).
  - destruct (Nat.lt_trichotomy d d') as [L|[L|L]].
    + exfalso. match goal with N : forall k b', (k < d')%nat -> _, E : nth_error chain d = Some _, F : first _ x i |- _ =>
        exact (N _ _ L E (FD _ _ _ F)) end.
    + subst. match goal with A : nth_error chain d' = Some _, B : nth_error chain d' = Some _ |- _ =>
        rewrite A in B; inversion B; subst end.
      f_equal. f_equal. eapply FU; eauto.
    + exfalso. match goal with N : forall k b', (k < d)%nat -> _, E : nth_error chain d' = Some _, F : first _ x i' |- _ =>
        exact (N _ _ L E (FD _ _ _ F)) end.
  - match goal with A : Some _ = Some _ |- _ => inversion A; subst end. f_equal. f_equal. eapply FU; eauto.
  - f_equal. f_equal. eapply FU; eauto.
Qed.
Print Assumptions C21_unique.

(** non-vacuity: x is declared in two blocks, as a parameter and globally *)
Example C21_case :
  let x := [120] in let y := [121] in let z := [122] in let w := [119] in
  find_var [[y]; [z; x]; [x]] (Some [x; w]) [x; y] x = Some (Local 1 1) /\
  find_var [[y]; [z; x]; [x]] (Some [x; w]) [x; y] w = Some (Param 1) /\
  find_var [[z]] (Some [x; w]) [x; y] y = Some (Global 1).
Proof. repeat split. Qed.
