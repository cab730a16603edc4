(** A decision procedure for the form of the functions given to the construction of SSA form (SsaSpec.v: ssa_input), used for
    concrete functions.  Not part of the model: nothing here is in /repo. *)
From Verif.Mid Require Import Ssa SsaSpec.

Section Check.
  Variable V : vars.
  Variable in_scope : nat -> nat -> bool.
  Variable declared : nat -> list nat.
  Variable temp : nat -> bool.
  Variable g : cfg.
  Variables entry exit : nat.
  Variable params : list nat.
  Variable nvars : nat.
  Variable code : nat -> list rinsn.
  Variable blocks : list nat.            (* the blocks, each reached from an earlier one *)
  Variable L : nat -> list nat.          (* the variables needed at the beginning of a block *)
  Notation R := (reach (succs g) entry).
  Notation plain := (plain_code code).

  Definition reads_of (i : insn) : list nat := opt_list (i_rs1 i) ++ opt_list (i_rs2 i).
  Definition rd_is (i : insn) (x : nat) : bool := match i_rd i with Some d => Nat.eqb d x | None => false end.
  Definition writesb (i : insn) (x : nat) : bool := rd_is i x && negb (op_is i OP_unwound_phi).
  Lemma writesb_spec i x : writesb i x = true <-> writes i x.
  Proof.
    unfold writesb, rd_is, writes, op_is. rewrite andb_true_iff, negb_true_iff. destruct (i_rd i) as [d|]; [rewrite Nat.eqb_eq|]; destruct (opcode_eq_dec _ _); split; intros [A B]; split; congruence.
  Qed.
  Lemma reads_of_spec i x : reads i x <-> In x (reads_of i).
  Proof. unfold reads, reads_of. rewrite in_app_iff. destruct (i_rs1 i), (i_rs2 i); cbn; intuition congruence. Qed.
  Fixpoint expo (l : list insn) : list nat :=
    match l with [] => [] | i :: r => reads_of i ++ filter (fun x => negb (writesb i x)) (expo r) end.
  Lemma expo_ok l x : exposed l x -> In x (expo l).
  Proof.
    intros (l1 & i & l2 & -> & Rd & U). induction l1 as [|j l1 IH]; cbn.
    - apply in_or_app. left. apply reads_of_spec. exact Rd.
    - apply in_or_app. right. apply filter_In. split; [apply IH; intros k K; apply U; right; exact K|].
      apply negb_true_iff. destruct (writesb j x) eqn:W; [|reflexivity]. apply writesb_spec in W. destruct (U j (or_introl eq_refl) W).
  Qed.
  Definition killed_in (l : list insn) (x : nat) : bool := existsb (fun i => writesb i x) l.
  Lemma killed_in_ok l x : untouched l x -> killed_in l x = false.
  Proof.
    intros U. destruct (killed_in l x) eqn:K; [|reflexivity]. apply existsb_exists in K. destruct K as (i & I & W). apply writesb_spec in W. destruct (U i I W).
  Qed.
  Definition sub (l m : list nat) : bool := forallb (fun x => mem x m) l.
  Lemma sub_ok l m x : sub l m = true -> In x l -> In x m.
  Proof. intros H I. unfold sub in H. rewrite forallb_forall in H. apply mem_In. apply H. exact I. Qed.

  (** each block is reached from an earlier one *)
  Fixpoint entered (done l : list nat) : bool :=
    match l with [] => true | b :: r => existsb (fun p => mem b (succs g p)) done && entered (b :: done) r end.
  Lemma entered_ok l : forall done, (forall b, In b done -> R b) -> entered done l = true -> forall b, In b l -> R b.
  Proof.
    induction l as [|c l IH]; intros done D H b I; [destruct I|]. cbn in H. apply andb_true_iff in H. destruct H as [H1 H2]. apply existsb_exists in H1. destruct H1 as (p & Ip & E). apply mem_In in E.
    assert (Rc : R c) by (eapply reach_step; [apply D; exact Ip|exact E]). destruct I as [<-|I]; [exact Rc|]. apply (IH (c :: done)); auto. intros k [<-|K]; [exact Rc|apply D; exact K].
  Qed.
  (** the blocks reached from the entry without passing through a *)
  Fixpoint around (n : nat) (a : nat) (l : list nat) : list nat :=
    match n with
    | O => l
    | S n => around n a (l ++ filter (fun c => negb (Nat.eqb c a) && negb (mem c l)) (flat_map (succs g) l))
    end.
  Lemma around_ok n a : forall l, (forall b, In b l -> exists w, walk (succs g) entry w b /\ ~ In a w) -> forall b, In b (around n a l) -> exists w, walk (succs g) entry w b /\ ~ In a w.
  Proof.
    induction n as [|n IH]; intros l H b I; [apply H; exact I|]. cbn in I. apply (IH _) in I; [exact I|]. clear b I. intros b I. apply in_app_or in I. destruct I as [I|I]; [apply H; exact I|].
    apply filter_In in I. destruct I as [I N]. apply andb_true_iff in N. destruct N as [N _]. apply negb_true_iff, Nat.eqb_neq in N. apply in_flat_map in I. destruct I as (p & Ip & E).
    destruct (H p Ip) as (w & W & A). exists (w ++ [b]). split; [eapply walk_step; eassumption|]. rewrite in_app_iff. intros [K|[K|[]]]; [exact (A K)|congruence].
  Qed.
  Definition avoids (a b : nat) : bool := negb (Nat.eqb entry a) && mem b (around (length blocks) a [entry]).
  Lemma avoids_ok a b : avoids a b = true -> ~ dominates (succs g) entry a b.
  Proof.
    unfold avoids. intros H D. apply andb_true_iff in H. destruct H as [N H]. apply negb_true_iff, Nat.eqb_neq in N. apply mem_In in H.
    apply around_ok in H; [destruct H as (w & W & A); exact (A (D w W))|]. intros c [<-|[]]. exists [entry]. split; [apply walk_one|]. intros [K|[]]. congruence.
  Qed.
  Fixpoint last_branch (l : list insn) : bool :=
    match l with [] => true | i :: r => (negb (op_is i OP_branch) || match r with [] => true | _ => false end) && last_branch r end.
  Lemma last_branch_ok l l1 i l2 : last_branch l = true -> l = l1 ++ i :: l2 -> i_op i = OP_branch -> l2 = [].
  Proof.
    intros H -> E. induction l1 as [|j l1 IH]; cbn in H; apply andb_true_iff in H; destruct H as [H1 H2]; [|apply IH; exact H2].
    unfold op_is in H1. destruct (opcode_eq_dec _ _); [|congruence]. destruct l2; [reflexivity|discriminate].
  Qed.
  Definition last_push (l : list insn) : bool := match rev l with i :: _ => negb (op_is i OP_push) | [] => true end.
  Lemma last_push_ok l l1 i : last_push l = true -> l = l1 ++ [i] -> i_op i <> OP_push.
  Proof. intros H ->. unfold last_push, op_is in H. rewrite rev_unit in H. destruct (opcode_eq_dec _ _); [discriminate|assumption]. Qed.
  Fixpoint distinct (l : list nat) : bool := match l with [] => true | x :: r => negb (mem x r) && distinct r end.
  Lemma distinct_ok l : distinct l = true -> NoDup l.
  Proof. induction l as [|x l IH]; [constructor|]. cbn. rewrite andb_true_iff, negb_true_iff, mem_not. intros [A B]. constructor; auto. Qed.

  Definition no_dest (o : opcode) : bool := match o with OP_write | OP_push | OP_call | OP_indirect | OP_branch | OP_return => true | _ => false end.
  Definition insn_ok (i : insn) : bool :=
    forallb (fun x => (x <? nvars)%nat) (opt_list (i_rd i) ++ reads_of i) &&
    (negb (no_dest (i_op i)) || match i_rd i with None => true | Some _ => false end) && negb (op_is i OP_unwound_phi) &&
    (op_is i OP_write || match i_rs2 i with Some y => match v_func V y with None => true | Some _ => false end | None => true end).
  Definition block_ok (b : nat) : bool :=
    sub (succs g b) blocks &&
    forallb (fun a => mem a blocks && mem b (succs g a)) (preds g b) &&
    forallb (fun c => mem b (preds g c)) (succs g b) &&
    forallb insn_ok (plain b) && last_branch (plain b) && last_push (plain b) &&
    sub (expo (plain b)) (L b) &&
    forallb (fun c => forallb (fun x => killed_in (plain b) x || mem x (L b)) (L c)) (succs g b) &&
    (Nat.eqb b entry || forallb (fun x => v_global V x || in_scope x b && negb (mem x (declared b))) (L b)) &&
    forallb (fun x => negb (temp x) || existsb (fun a => mem b (succs g a) && existsb (fun i => rd_is i x) (plain a) && (Nat.eqb a b || avoids a b)) blocks) (L b).
  Definition input_ok : bool :=
    match blocks with b :: r => Nat.eqb b entry && entered [entry] r | [] => false end && forallb block_ok blocks &&
    match preds g entry with [] => true | _ => false end && match code exit with [] => true | _ => false end && match succs g exit with [] => true | _ => false end &&
    distinct params && forallb (fun x => negb (v_global V x) && (x <? nvars)%nat) params.

  Lemma block_facts b : block_ok b = true ->
    (forall c, In c (succs g b) -> In c blocks) /\ (forall a, In a (preds g b) -> In a blocks /\ In b (succs g a)) /\ (forall c, In c (succs g b) -> In b (preds g c)) /\
    (forall i, In i (plain b) -> insn_ok i = true) /\ last_branch (plain b) = true /\ last_push (plain b) = true /\
    (forall x, exposed (plain b) x -> In x (L b)) /\ (forall c x, In c (succs g b) -> In x (L c) -> untouched (plain b) x -> In x (L b)) /\
    (forall x, b <> entry -> In x (L b) -> v_global V x = false -> in_scope x b = true /\ ~ In x (declared b)) /\
    (forall x, In x (L b) -> temp x = true -> exists a, In a blocks /\ In b (succs g a) /\ defines code a x /\ (a = b \/ ~ dominates (succs g) entry a b)).
  Proof.
    unfold block_ok. rewrite !andb_true_iff. intros (((((((((A & B) & C) & D) & E) & F) & G) & H) & K) & J). rewrite !forallb_forall in *.
    repeat split.
    - intros c Ic. eapply sub_ok; eassumption.
    - specialize (B a H0). apply andb_true_iff in B. apply mem_In. apply B.
    - specialize (B a H0). apply andb_true_iff in B. apply mem_In. apply B.
    - intros c Ic. apply mem_In. apply C. exact Ic.
    - exact D.
    - exact E.
    - exact F.
    - intros x X. eapply sub_ok; [exact G|]. apply expo_ok. exact X.
    - intros c x Ic Ix U. specialize (H c Ic). rewrite forallb_forall in H. specialize (H x Ix). rewrite killed_in_ok in H by exact U. apply mem_In. exact H.
    - apply orb_true_iff in K. destruct K as [K|K]; [apply Nat.eqb_eq in K; contradiction|]. rewrite forallb_forall in K. specialize (K x H1). rewrite H2 in K. apply andb_true_iff in K. apply K.
    - apply orb_true_iff in K. destruct K as [K|K]; [apply Nat.eqb_eq in K; contradiction|]. rewrite forallb_forall in K. specialize (K x H1). rewrite H2 in K. apply andb_true_iff in K. apply mem_not. apply negb_true_iff. apply K.
    - intros x Ix T. specialize (J x Ix). rewrite T in J. cbn in J. apply existsb_exists in J. destruct J as (a & Ia & J). rewrite !andb_true_iff in J. destruct J as [[J1 J2] J3]. exists a. split; [exact Ia|]. split; [apply mem_In; exact J1|]. split.
      + apply existsb_exists in J2. destruct J2 as (i & Ii & W). exists i. split; [exact Ii|]. unfold rd_is in W. destruct (i_rd i); [apply Nat.eqb_eq in W; congruence|discriminate].
      + apply orb_true_iff in J3. destruct J3 as [J3|J3]; [left; apply Nat.eqb_eq; exact J3|right; apply avoids_ok; exact J3].
  Qed.
  Theorem input_ok_sound : input_ok = true -> ssa_input V in_scope declared temp g entry exit params nvars code /\ (forall b, R b -> In b blocks).
  Proof.
    unfold input_ok. rewrite !andb_true_iff. intros ((((((B & C) & D) & E) & F) & G) & H). rewrite forallb_forall in C. assert (C' := fun b I => block_facts b (C b I)). clear C.
    assert (AU : In entry blocks /\ forall b, In b blocks -> R b).
    { destruct blocks as [|e r]; [discriminate|]. apply andb_true_iff in B. destruct B as [B1 B2]. apply Nat.eqb_eq in B1. subst e. split; [left; reflexivity|].
      intros b [<-|I]; [apply reach_refl|]. apply (entered_ok r [entry]); [intros c [<-|[]]; apply reach_refl|exact B2|exact I]. }
    destruct AU as [A U'].
    assert (U : forall b, R b -> In b blocks) by (assert (C2 := fun b I => proj1 (C' b I)); clear - A C2; intros b Rb; induction Rb as [e|e b c Rb IH Ec]; [exact A|apply (C2 b); auto]).
    assert (Lv : forall x b, R b -> live_in g code x b -> In x (L b)).
    { assert (N : forall x b, needed (succs g) plain x b -> R b -> exists c, In c (succs g b) /\ In x (L c)).
      { induction 1 as [b c Ec X|b c Ec X N IH]; intros Rb; assert (Rc : R c) by (eapply reach_step; eassumption); destruct (C' c (U c Rc)) as (_ & _ & _ & _ & _ & _ & K1 & K2 & _); exists c; (split; [exact Ec|]).
        - apply K1. exact X.
        - destruct (IH Rc) as (d & Ed & Id). eapply K2; eassumption. }
      intros x b Rb [X|[X Nx]]; destruct (C' b (U b Rb)) as (_ & _ & _ & _ & _ & _ & K1 & K2 & _); [apply K1; exact X|]. destruct (N x b Nx Rb) as (c & Ec & Ic). eapply K2; eassumption. }
    split; [|exact U]. constructor; [constructor| | |].
    - intros a b Rb. destruct (C' b (U b Rb)) as (_ & K1 & _). split; [intros I; destruct (K1 a I) as [I1 I2]; auto|]. intros [Ra I]. apply (C' a (U a Ra)). exact I.
    - destruct (preds g entry); [reflexivity|discriminate].
    - split; [destruct (code exit)|destruct (succs g exit)]; [reflexivity|discriminate|reflexivity|discriminate].
    - intros b i x Rb Ii Hx. destruct (C' b (U b Rb)) as (_ & _ & _ & K & _). specialize (K i Ii). unfold insn_ok in K. rewrite !andb_true_iff in K. destruct K as (((K & _) & _) & _). rewrite forallb_forall in K. apply Nat.ltb_lt. apply K. apply in_or_app.
      destruct Hx as [->|Hx]; [left; left; reflexivity|right; apply reads_of_spec; exact Hx].
    - split; [apply distinct_ok; exact G|]. intros x I. rewrite forallb_forall in H. specialize (H x I). apply andb_true_iff in H. destruct H as [H1 H2]. split; [apply negb_true_iff; exact H1|apply Nat.ltb_lt; exact H2].
    - intros b l1 i l2 Rb. destruct (C' b (U b Rb)) as (_ & _ & _ & _ & K & _). apply last_branch_ok. exact K.
    - intros b l i Rb. destruct (C' b (U b Rb)) as (_ & _ & _ & _ & _ & K & _). apply last_push_ok. exact K.
    - intros b i Rb Ii Io. destruct (C' b (U b Rb)) as (_ & _ & _ & K & _). specialize (K i Ii). unfold insn_ok in K. rewrite !andb_true_iff in K. destruct K as (((_ & K) & _) & _).
      destruct (i_rd i); [|reflexivity]. exfalso. cbn in Io. repeat (destruct Io as [Io|Io]; [rewrite <- Io in K; discriminate K|]). exact Io.
    - intros b i Rb Ii Io. destruct (C' b (U b Rb)) as (_ & _ & _ & K & _). specialize (K i Ii). unfold insn_ok in K. rewrite !andb_true_iff in K. destruct K as ((_ & K) & _). unfold op_is in K. rewrite Io in K. destruct (opcode_eq_dec _ _); [discriminate|congruence].
    - intros b i y Rb Ii Hy Hf. destruct (C' b (U b Rb)) as (_ & _ & _ & K & _). specialize (K i Ii). unfold insn_ok in K. rewrite !andb_true_iff in K. destruct K as (_ & K). rewrite Hy in K. destruct (v_func V y); [|congruence]. rewrite orb_false_r in K. unfold op_is in K. destruct (opcode_eq_dec _ _); [assumption|discriminate].
    - intros b x Rb Nb Gx Lx. destruct (C' b (U b Rb)) as (_ & _ & _ & _ & _ & _ & _ & _ & K & _). apply (K x Nb); [apply Lv; assumption|exact Gx].
    - intros b x Rb Nb Gx Lx. destruct (C' b (U b Rb)) as (_ & _ & _ & _ & _ & _ & _ & _ & K & _). apply (K x Nb); [apply Lv; assumption|exact Gx].
    - intros a y b x Rb T _ _ _ Lx. destruct (C' b (U b Rb)) as (_ & _ & _ & _ & _ & _ & _ & _ & _ & K). destruct (K x (Lv x b Rb Lx) T) as (a' & Ia & Eb & Df & Do). exists a'. split; [apply U'; exact Ia|]. split; [exact Df|]. split.
      + exists a'. split; [apply U'; exact Ia|]. split; [exact Eb|]. intros w W. apply walk_end in W. exact W.
      + intros [D1 D2]. destruct Do as [->|Do]; [congruence|exact (Do D1)].
  Qed.
End Check.
