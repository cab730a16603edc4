(** The instructions of src/defs.h:352-365 insn_t as the middle passes see them.  Variables are numbers (stand for
    pointers to var_t). *)
From Verif.Ir Require Export Ph2.
From Verif.Mid Require Export Cfg.

Record insn := mkinsn { i_op : opcode; i_rd : option nat; i_rs1 : option nat; i_rs2 : option nat }.
Definition op_is (i : insn) (o : opcode) : bool := if opcode_eq_dec (i_op i) o then true else false.
Definition mem (v : nat) (l : list nat) : bool := existsb (Nat.eqb v) l.
(* the test "not yet in the array, then append": src/ssa.c:461-474 bb_add_killed_var, 1627-1632, 1664-1671 *)
Definition add (v : nat) (l : list nat) : list nat := if mem v l then l else l ++ [v].

Lemma mem_In v l : mem v l = true <-> In v l.
Proof.
  unfold mem. rewrite existsb_exists. split.
  - intros (x & I & E). apply Nat.eqb_eq in E. subst. exact I.
  - intros I. exists v. rewrite Nat.eqb_refl. auto.
Qed.
Lemma mem_not v l : mem v l = false <-> ~ In v l.
Proof. rewrite <- mem_In. destruct (mem v l); split; congruence. Qed.
Lemma add_In v x l : In x (add v l) <-> x = v \/ In x l.
Proof.
  unfold add. destruct (mem v l) eqn:E.
  - apply mem_In in E. split; [auto|]. intros [->|I]; auto.
  - rewrite in_app_iff. cbn. split; [intros [I|[->|[]]]; auto|intros [->|I]; auto].
Qed.
Lemma add_NoDup v l : NoDup l -> NoDup (add v l).
Proof.
  intros H. unfold add. destruct (mem v l) eqn:E; [exact H|]. apply mem_not in E.
  apply NoDup_Add with (a := v) (l := l); [|split; assumption]. rewrite <- (app_nil_r l) at 1. apply Add_app.
Qed.
