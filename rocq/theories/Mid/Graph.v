(** Specification: paths in a graph.  Nothing here comes from /repo. *)
From Coq Require Import List.
Import ListNotations.

(** [reach succ a b]: b can be reached from a along zero or more edges *)
Inductive reach (succ : nat -> list nat) : nat -> nat -> Prop :=
| reach_refl a : reach succ a a
| reach_step a b c : reach succ a b -> In c (succ b) -> reach succ a c.

(** following the links [next] from [b] visits exactly the list [l] and ends in NULL *)
Inductive chain (next : nat -> option nat) : option nat -> list nat -> Prop :=
| chain_nil : chain next None []
| chain_cons b l : chain next (next b) l -> chain next (Some b) (b :: l).

Lemma reach_trans succ a b c : reach succ a b -> reach succ b c -> reach succ a c.
Proof. intros H1 H2. induction H2 as [|b d c H2 IH E]; [exact H1|]. eapply reach_step; [apply IH; exact H1|exact E]. Qed.
Lemma reach_edge succ a b : In b (succ a) -> reach succ a b.
Proof. intros H. eapply reach_step; [apply reach_refl|exact H]. Qed.
Lemma reach_front succ a b c : In b (succ a) -> reach succ b c -> reach succ a c.
Proof. intros E H. eapply reach_trans; [apply reach_edge; exact E|exact H]. Qed.

(** [walk succ a l b]: l lists the blocks visited going from a to b along edges, both ends included *)
Inductive walk (succ : nat -> list nat) : nat -> list nat -> nat -> Prop :=
| walk_one a : walk succ a [a] a
| walk_step a l b c : walk succ a l b -> In c (succ b) -> walk succ a (l ++ [c]) c.

(** every way from the entry to b goes through a *)
Definition dominates (succ : nat -> list nat) (entry a b : nat) : Prop := forall l, walk succ entry l b -> In a l.
(** d is the immediate dominator of b: the closest one other than b itself *)
Definition immediate_dominator (succ : nat -> list nat) (entry d b : nat) : Prop :=
  d <> b /\ dominates succ entry d b /\
  forall a, a <> b -> dominates succ entry a b -> dominates succ entry a d.

Lemma walk_reach succ a l b : walk succ a l b -> reach succ a b.
Proof. induction 1; [apply reach_refl|eapply reach_step; eassumption]. Qed.
Lemma reach_walk succ a b : reach succ a b -> exists l, walk succ a l b.
Proof. induction 1 as [|a b c R [l W] E]; [eexists; apply walk_one|eexists; eapply walk_step; eassumption]. Qed.
Lemma walk_end succ a l b : walk succ a l b -> In b l.
Proof. destruct 1; [left; reflexivity|apply in_or_app; right; left; reflexivity]. Qed.
Lemma walk_start succ a l b : walk succ a l b -> In a l.
Proof. induction 1; [left; reflexivity|apply in_or_app; left; assumption]. Qed.
