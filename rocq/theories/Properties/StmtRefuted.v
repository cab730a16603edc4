(** C47, what the restrictions exclude: each of these functions is accepted and compiled to something else than C says. *)
From Coq Require Import String.
From Verif.Front Require Import LexSpec StmtEval StmtExec CodeExec.
From Verif.Properties Require Import StmtProps.
Open Scope Z_scope.

(** C returns [good] for the argument n; the function is accepted and returns [bad] only (None: never returns) *)
Definition differs (q : stmt) (n good : Z) (bad : option Z) : Prop :=
  (exists w', demo_exec q n (fun _ => 0) (OReturn (Some good)) w') /\
  exists ts F e, demo_read q = Some (ts, F, e) /\ places q = map demo_place (arrays_of e) /\
    match bad with
    | Some r => exists w', demo_runs F e n (fun _ => 0) w' (Some r) /\ forall w'' r', demo_runs F e n (fun _ => 0) w'' r' -> r' = Some r
    | None => forall w'' r', ~ demo_runs F e n (fun _ => 0) w'' r'
    end.
Definition is_stuck (x : @verdict mem) : bool := match x with Stuck => true | _ => false end.
Definition ends_with (r : Z) (x : @verdict mem) : bool := match x with Ends _ (Some r') => r =? r' | _ => false end.
Lemma differs_by q n good bad :
  match demo_interp q n (fun _ => 0) with Some (OReturn (Some r), _, _) => r =? good | _ => false end = true ->
  match demo_read q with
  | Some (_, F, e) =>
      (if list_eq_dec Z.eq_dec (places q) (map demo_place (arrays_of e)) then true else false) &&
      match bad with Some r => ends_with r | None => is_stuck end (xrun demo_M (demo_V F e) (fun _ => 0) demo_place 1 false F 60 0 (mks (demo_env n) (fun _ => 0) [] None))
  | None => false
  end = true -> differs q n good bad.
Proof.
  intros A B. split.
  - destruct (demo_interp q n (fun _ => 0)) as [[[o E] w']|] eqn:Q; [|discriminate A]. destruct o as [| | |[r|]]; try discriminate A. apply Z.eqb_eq in A. subst r. exists w'. eapply demo_interp_ok. exact Q.
  - destruct (demo_read q) as [[[ts F] e]|] eqn:Q; [|discriminate B]. exists ts, F, e. split; [reflexivity|]. apply andb_true_iff in B. destruct B as [P B].
    split; [destruct (list_eq_dec _ _ _); [assumption|discriminate P]|]. clear P.
    destruct bad as [r|].
    + destruct (xrun _ _ _ _ _ _ _ _ _ _) as [w [r'| ]| |] eqn:X; try discriminate B. apply Z.eqb_eq in B. subst r'. apply xrun_ends in X. destruct X as [R U]. exists w. split; [exact R|]. intros w'' r' R'. apply (U w'' r' R').
    + destruct (xrun _ _ _ _ _ _ _ _ _ _) as [w r'| |] eqn:X; try discriminate B. intros w'' r' R. exact (xrun_stuck _ _ _ _ _ _ _ _ _ _ X _ _ R).
Qed.
Ltac by_running := apply differs_by; vm_compute; reflexivity.

(** { char c = n; return c; } with n = 300: 44 in C *)
Theorem C47_char_refuted : differs (seq [SDecl (name "char") [mkd 0 (name "c") None (Some (v "n")) 0]; SReturn (Some (v "c"))]) 300 44 (Some 300).
Proof. by_running. Qed.
Print Assumptions C47_char_refuted.
(** { char c; c = n; return c; } *)
Theorem C47_char_assignment_refuted : differs (seq [SDecl (name "char") [mkd 0 (name "c") None None 0]; SSimple (Assign (lv "c") (v "n")); SReturn (Some (v "c"))]) 300 44 (Some 300).
Proof. by_running. Qed.
Print Assumptions C47_char_assignment_refuted.
(** { int a[2], *p; p = a; p[0] = n; p[0]++; return p[0]; } *)
Theorem C47_pointed_increment_refuted : differs
  (seq [int_ [mkd 0 (name "a") (Some (Decimal (bytes "2"))) None 12000; mkd 1 (name "p") None None 0]; SSimple (Assign (lv "p") (v "a"));
        SSimple (Assign (LIdx (name "p") zero) (v "n")); SSimple (Post (LIdx (name "p") zero) BAdd); SReturn (Some (RIdx (name "p") zero))]) 5 6 (Some 9).
Proof. by_running. Qed.
Print Assumptions C47_pointed_increment_refuted.
(** { char **q; q = n; q++; return q; } *)
Theorem C47_pointer_step_refuted : differs
  (seq [SDecl (name "char") [mkd 2 (name "q") None None 0]; SSimple (Assign (lv "q") (v "n")); SSimple (Post (lv "q") BAdd); SReturn (Some (v "q"))]) 400 404 (Some 401).
Proof. by_running. Qed.
Print Assumptions C47_pointer_step_refuted.
(** { for (; n != 1; n = n && 7) n = n + 1; return n; }: the body goes past the beginning of the increment, where && is begun, and
    n gets a value that was never computed *)
Theorem C47_increment_refuted : differs
  (seq [SFor FNone (Some (RBin BNe (v "n") (num "1"))) (Some (Assign (lv "n") (RBin LAnd (v "n") (num "7")))) (SSimple (Assign (lv "n") (RBin BAdd (v "n") (num "1"))));
        SReturn (Some (v "n"))]) 3 1 None.
Proof. by_running. Qed.
Print Assumptions C47_increment_refuted.
(** { for (;;) { if (n > 0) { n--; continue; } return n; } }: the continue goes to a block that goes nowhere *)
Theorem C47_continue_refuted : differs
  (seq [SFor FNone None None (block [SIf (RBin BGt (v "n") zero) (block [SSimple (Post (lv "n") BSub); SContinue]); SReturn (Some (v "n"))])]) 3 0 None.
Proof. by_running. Qed.
Print Assumptions C47_continue_refuted.
