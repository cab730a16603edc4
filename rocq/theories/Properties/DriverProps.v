(** C44: command-line options.

    The specification: a command line is a sequence of items in any order, written as in the usage text
    "shecc [-o output] [+m] [--dump-ir] [--no-libc] <input.c>". *)
From Coq Require Import String Permutation.
From Verif.Front Require Import Lexer LexSpec.
From Verif.Tool Require Import Driver.

Inductive item := IOutput (file : text) | IMulDiv | IDumpIr | INoLibc | IInput (file : text).
Definition render1 (i : item) : list text :=
  match i with
  | IOutput f => [bytes "-o"; f] | IMulDiv => [bytes "+m"] | IDumpIr => [bytes "--dump-ir"] | INoLibc => [bytes "--no-libc"]
  | IInput f => [f]
  end.
Definition render (l : list item) : list text := flat_map render1 l.
Definition is_option (t : text) : Prop :=
  t = bytes "-o" \/ t = bytes "+m" \/ t = bytes "--dump-ir" \/ t = bytes "--no-libc".
(** An input file is anything that is not an option word; an output file may be anything. *)
Definition wf (i : item) : Prop := match i with IInput f => ~ is_option f | _ => True end.

(** the last input / output named, if any *)
Definition last_input (l : list item) (r : option text) : Prop :=
  match r with
  | Some f => exists a b, l = a ++ IInput f :: b /\ (forall g, ~ In (IInput g) b)
  | None => forall g, ~ In (IInput g) l
  end.
Definition last_output (l : list item) (r : option text) : Prop :=
  match r with
  | Some f => exists a b, l = a ++ IOutput f :: b /\ (forall g, ~ In (IOutput g) b)
  | None => forall g, ~ In (IOutput g) l
  end.

Lemma text_eqb_eq a : forall b, text_eqb a b = true <-> a = b.
Proof.
  induction a as [|x a IH]; destruct b as [|y b]; cbn; try (split; congruence).
  rewrite andb_true_iff, Z.eqb_eq, IH. split; [intros [-> ->]; reflexivity|intros [= -> ->]; auto].
Qed.
Lemma text_eqb_ne a b : text_eqb a b = false <-> a <> b.
Proof. rewrite <- text_eqb_eq. destruct (text_eqb a b); split; congruence. Qed.
Lemma text_eqb_refl a : text_eqb a a = true. Proof. now apply text_eqb_eq. Qed.

Definition apply1 (s : settings) (i : item) : settings :=
  match i with
  | IOutput f => mkset (dump_ir s) (hard_mul_div s) (libc s) (Some f) (inp s)
  | IMulDiv => mkset (dump_ir s) true (libc s) (out s) (inp s)
  | IDumpIr => mkset true (hard_mul_div s) (libc s) (out s) (inp s)
  | INoLibc => mkset (dump_ir s) (hard_mul_div s) false (out s) (inp s)
  | IInput f => mkset (dump_ir s) (hard_mul_div s) (libc s) (out s) (Some f)
  end.
Lemma args_render l : forall s, Forall wf l -> args s (render l) = fold_left apply1 l s.
Proof.
  induction l as [|i l IH]; intros s F; [reflexivity|]. inversion F as [|? ? W F']; subst.
  destruct i; cbn [render flat_map render1 app fold_left apply1]; try (rewrite <- IH by exact F'; reflexivity).
  rewrite <- IH by exact F'. cbn [args]. cbn in W. unfold is_option in W.
  rewrite !(proj2 (text_eqb_ne _ _)) by tauto. reflexivity.
Qed.

Lemma fold_facts l : forall s,
  let r := fold_left apply1 l s in
  (dump_ir r = true <-> dump_ir s = true \/ In IDumpIr l) /\
  (hard_mul_div r = true <-> hard_mul_div s = true \/ In IMulDiv l) /\
  (libc r = true <-> libc s = true /\ ~ In INoLibc l) /\
  (last_input l None /\ inp r = inp s \/ exists f, inp r = Some f /\ last_input l (Some f)) /\
  (last_output l None /\ out r = out s \/ exists f, out r = Some f /\ last_output l (Some f)).
Proof.
  induction l as [|i l IH]; intros s r.
  - cbn in r. subst r. repeat split; cbn; try tauto; left; split; auto.
  - specialize (IH (apply1 s i)). cbn [fold_left] in r. fold r in IH. cbn zeta in IH.
    destruct IH as (D & H & L & I & O). split; [|split; [|split; [|split]]].
    + rewrite D. cbn [In]. destruct i; cbn; intuition congruence.
    + rewrite H. cbn [In]. destruct i; cbn; intuition congruence.
    + rewrite L. cbn [In]. destruct i; cbn; intuition congruence.
    + destruct I as [[N E]|(f & E & a & b & -> & N)]; [|right; exists f; split; [exact E|]; exists (i :: a), b; auto].
      rewrite E. destruct i; try (left; split; [intros g [G|G]; [congruence|exact (N g G)]|reflexivity]).
      right. exists file. split; [reflexivity|]. exists [], l. auto.
    + destruct O as [[N E]|(f & E & a & b & -> & N)]; [|right; exists f; split; [exact E|]; exists (i :: a), b; auto].
      rewrite E. destruct i; try (left; split; [intros g [G|G]; [congruence|exact (N g G)]|reflexivity]).
      right. exists file. split; [reflexivity|]. exists [], l. auto.
Qed.

(** The input is the last non-option argument: exactly that file is parsed, or the usage is printed and the exit code is -1
    if there is none; -o names the output (the last one counts), a.out otherwise; the three switches act if they occur at all,
    at any position. *)
Theorem C44_options : forall l, Forall wf l ->
  let '(acts, code) := main (render l) in
  match inp (args initial (render l)) with
  | None => (forall f, ~ In (IInput f) l) /\ acts = [Print_usage] /\ code = -1
  | Some f =>
      last_input l (Some f) /\ code = 0 /\
      (forall g, In (Parse g) acts <-> g = f) /\
      (exists o, (forall g, In (Elf_generate g) acts <-> g = o) /\
         (last_output l (Some o) \/ last_output l None /\ o = bytes "a.out")) /\
      (In Libc acts <-> ~ In INoLibc l) /\
      (In Dump_ph1 acts <-> In IDumpIr l) /\ (In Dump_ph2 acts <-> In IDumpIr l) /\
      (forall b, In (Code_generate b) acts <-> (b = true <-> In IMulDiv l))
  end.
Proof.
  intros l F. unfold main. rewrite args_render by exact F. pose proof (fold_facts l initial) as P. cbn zeta in P.
  destruct (fold_left apply1 l initial) as [di hm lc ou ip]. cbn [dump_ir hard_mul_div libc out inp] in *.
  destruct P as (D & H & L & I & O). cbn [dump_ir hard_mul_div libc out inp initial] in *.
  destruct ip as [f|].
  2:{ destruct I as [[N _]|(f & E & _)]; [|discriminate]. auto. }
  destruct I as [[N E]|(f' & [= ->] & I)]; [discriminate|].
  split; [exact I|]. split; [reflexivity|].
  assert (X : forall x, In x ([Init] ++ (if lc then [Libc] else []) ++ [Parse f'] ++ (if di then [Dump_ph1] else []) ++
     [Ssa_build di; Optimize; Liveness; Reg_alloc; Peephole; Flatten] ++ (if di then [Dump_ph2] else []) ++
     [Code_generate hm; Elf_generate (match ou with Some o => o | None => bytes "a.out" end); Release]) <->
     (x = Init \/ (lc = true /\ x = Libc) \/ x = Parse f' \/ (di = true /\ (x = Dump_ph1 \/ x = Dump_ph2)) \/
      (x = Ssa_build di \/ x = Optimize \/ x = Liveness \/ x = Reg_alloc \/ x = Peephole \/ x = Flatten \/
       x = Code_generate hm \/ x = Elf_generate (match ou with Some o => o | None => bytes "a.out" end) \/ x = Release))).
  { intros x. rewrite !in_app_iff. destruct lc, di; cbn [In]; intuition congruence. }
  split; [|split; [|split; [|split; [|split]]]].
  - intros g. rewrite X. split; [intros G; repeat destruct G as [G|G]; try congruence; intuition congruence|intros ->; auto 20].
  - exists (match ou with Some o => o | None => bytes "a.out" end). split.
    + intros g. rewrite X. split; [intros G; repeat destruct G as [G|G]; try congruence; intuition congruence|intros ->; auto 20].
    + destruct O as [[N ->]|(o & -> & O)]; [right; auto|left; exact O].
  - rewrite X. destruct lc; intuition congruence.
  - rewrite X. destruct di; intuition congruence.
  - rewrite X. destruct di; intuition congruence.
  - intros b. rewrite X. split.
    + intros G. assert (b = hm) as -> by (repeat destruct G as [G|G]; try congruence; intuition congruence). rewrite H; intuition congruence.
    + intros G. assert (b = hm) as -> by (destruct b, hm; intuition congruence). auto 20.
Qed.
Print Assumptions C44_options.

(** Order does not matter: with at most one input and one output, permuting the items changes nothing. *)
Theorem C44_order : forall l l', Forall wf l -> Permutation l l' ->
  (forall f g a b c, l <> a ++ IInput f :: b ++ IInput g :: c) ->
  (forall f g a b c, l <> a ++ IOutput f :: b ++ IOutput g :: c) ->
  main (render l) = main (render l').
Proof.
  assert (U1 : forall l f g, (forall f g a b c, l <> a ++ IInput f :: b ++ IInput g :: c) -> In (IInput f) l -> In (IInput g) l -> f = g).
  { intros l f g N Hf Hg. apply in_split in Hf as (a & b & ->). apply in_app_or in Hg as [Hg|[Hg|Hg]]; [|congruence|].
    - apply in_split in Hg as (a1 & b1 & ->). exfalso. apply (N g f a1 b1 b). rewrite <- app_assoc. reflexivity.
    - apply in_split in Hg as (a1 & b1 & ->). exfalso. apply (N f g a a1 b1). reflexivity. }
  assert (U2 : forall l f g, (forall f g a b c, l <> a ++ IOutput f :: b ++ IOutput g :: c) -> In (IOutput f) l -> In (IOutput g) l -> f = g).
  { intros l f g N Hf Hg. apply in_split in Hf as (a & b & ->). apply in_app_or in Hg as [Hg|[Hg|Hg]]; [|congruence|].
    - apply in_split in Hg as (a1 & b1 & ->). exfalso. apply (N g f a1 b1 b). rewrite <- app_assoc. reflexivity.
    - apply in_split in Hg as (a1 & b1 & ->). exfalso. apply (N f g a a1 b1). reflexivity. }
  intros l l' F P N1 N2. assert (F' : Forall wf l') by (rewrite Forall_forall in *; intros x Hx; apply F; eapply Permutation_in; [apply Permutation_sym|]; eassumption).
  unfold main. rewrite !args_render by assumption.
  pose proof (fold_facts l initial) as A. pose proof (fold_facts l' initial) as B. cbn zeta in A, B.
  assert (E : fold_left apply1 l initial = fold_left apply1 l' initial); [|rewrite E; reflexivity].
  assert (Q : forall x, In x l <-> In x l') by (intros x; split; apply Permutation_in; [|apply Permutation_sym]; exact P).
  destruct (fold_left apply1 l initial) as [a1 a2 a3 a4 a5], (fold_left apply1 l' initial) as [b1 b2 b3 b4 b5].
  cbn [dump_ir hard_mul_div libc out inp initial] in *.
  destruct A as (A1 & A2 & A3 & A5 & A4), B as (B1 & B2 & B3 & B5 & B4).
  f_equal.
  - rewrite <- Q in B1. destruct a1, b1; intuition congruence.
  - rewrite <- Q in B2. destruct a2, b2; intuition congruence.
  - rewrite <- Q in B3. destruct a3, b3; intuition congruence.
  - destruct A4 as [[n ->]|(f & -> & x & y & -> & _)], B4 as [[n' ->]|(f' & -> & x' & y' & -> & _)]; auto.
    + destruct (n f'). apply Q. apply in_elt.
    + destruct (n' f). apply Q. apply in_elt.
    + f_equal. apply (U2 (x ++ IOutput f :: y)); [exact N2|apply in_elt|apply Q; apply in_elt].
  - destruct A5 as [[n ->]|(f & -> & x & y & -> & _)], B5 as [[n' ->]|(f' & -> & x' & y' & -> & _)]; auto.
    + destruct (n f'). apply Q. apply in_elt.
    + destruct (n' f). apply Q. apply in_elt.
    + f_equal. apply (U1 (x ++ IInput f :: y)); [exact N1|apply in_elt|apply Q; apply in_elt].
Qed.
Print Assumptions C44_order.

(** Every command line is of that form, or of that form followed by -o alone. *)
Theorem C44_coverage : forall argv, exists l, Forall wf l /\ (argv = render l \/ argv = render l ++ [bytes "-o"]).
Proof.
  assert (K : forall n argv, (List.length argv < n)%nat -> exists l, Forall wf l /\ (argv = render l \/ argv = render l ++ [bytes "-o"])).
  { induction n as [|n IH]; intros argv L; [lia|]. destruct argv as [|a r]; [exists []; split; [constructor|left; reflexivity]|].
    assert (G : forall i rest, wf i -> a :: r = render1 i ++ rest -> (List.length rest < n)%nat ->
      exists l, Forall wf l /\ (a :: r = render l \/ a :: r = render l ++ [bytes "-o"])).
    { intros i rest W E Lr. destruct (IH rest Lr) as (l & Fl & [ -> | -> ]); exists (i :: l); (split; [constructor; assumption|]); rewrite E;
        [left; reflexivity|right; cbn [render flat_map]; rewrite <- app_assoc; reflexivity]. }
    cbn in L.
    destruct (text_eqb a (bytes "--dump-ir")) eqn:E1; [apply text_eqb_eq in E1 as ->; apply (G IDumpIr r); [exact I|reflexivity|lia]|].
    destruct (text_eqb a (bytes "+m")) eqn:E2; [apply text_eqb_eq in E2 as ->; apply (G IMulDiv r); [exact I|reflexivity|lia]|].
    destruct (text_eqb a (bytes "--no-libc")) eqn:E3; [apply text_eqb_eq in E3 as ->; apply (G INoLibc r); [exact I|reflexivity|lia]|].
    destruct (text_eqb a (bytes "-o")) eqn:E4.
    - apply text_eqb_eq in E4 as ->. destruct r as [|o r]; [exists []; split; [constructor|right; reflexivity]|].
      apply (G (IOutput o) r); [exact I|reflexivity|cbn in L; lia].
    - apply text_eqb_ne in E1, E2, E3, E4. apply (G (IInput a) r); [cbn; unfold is_option; tauto|reflexivity|lia]. }
  intros argv. apply (K (S (List.length argv))). lia.
Qed.
Print Assumptions C44_coverage.

(** A last -o without a file is not reported, as the source intends ("unsupported options"): it cancels an earlier -o. *)
Theorem C44_dangling_output : forall l, Forall wf l ->
  main (render l ++ [bytes "-o"]) = main (render (filter (fun i => match i with IOutput _ => false | _ => true end) l)).
Proof.
  intros l F. unfold main.
  assert (A : forall l s, Forall wf l -> args s (render l ++ [bytes "-o"]) =
    let s' := fold_left apply1 l s in mkset (dump_ir s') (hard_mul_div s') (libc s') None (inp s')).
  { clear. induction l as [|i l IH]; intros s F; [reflexivity|]. inversion F as [|? ? W F']; subst.
    destruct i; cbn [render flat_map render1 app fold_left]; try (rewrite <- IH by exact F'; reflexivity).
    rewrite <- IH by exact F'. cbn [args apply1]. cbn in W. unfold is_option in W.
    rewrite !(proj2 (text_eqb_ne _ _)) by tauto. reflexivity. }
  rewrite A by exact F. rewrite args_render.
  2:{ rewrite Forall_forall in *. intros x Hx. apply filter_In in Hx as [Hx _]. auto. }
  assert (B : forall l s s', dump_ir s = dump_ir s' -> hard_mul_div s = hard_mul_div s' -> libc s = libc s' -> inp s = inp s' -> out s' = None ->
    (let r := fold_left apply1 l s in mkset (dump_ir r) (hard_mul_div r) (libc r) None (inp r)) =
    fold_left apply1 (filter (fun i => match i with IOutput _ => false | _ => true end) l) s').
  { clear. induction l as [|i l IH]; intros [a1 a2 a3 a4 a5] [b1 b2 b3 b4 b5]; cbn; intros; subst; [reflexivity|].
    destruct i; cbn [filter fold_left apply1 dump_ir hard_mul_div libc out inp]; apply IH; reflexivity. }
  rewrite (B l initial initial) by reflexivity. reflexivity.
Qed.
Print Assumptions C44_dangling_output.

(** a non-trivial instance: shecc x.c -o +m --no-libc +m y.c *)
Example C44_sample :
  let l := [IInput (bytes "x.c"); IOutput (bytes "+m"); INoLibc; IMulDiv; IInput (bytes "y.c")] in
  Forall wf l /\ render l = map bytes ["x.c"; "-o"; "+m"; "--no-libc"; "+m"; "y.c"]%string /\
  main (render l) = ([Init; Parse (bytes "y.c"); Ssa_build false; Optimize; Liveness; Reg_alloc; Peephole; Flatten;
    Code_generate true; Elf_generate (bytes "+m"); Release], 0).
Proof.
  split; [|vm_compute; auto]. repeat (apply Forall_cons; [cbn [wf]; try exact I; unfold is_option; vm_compute; intuition congruence|]). apply Forall_nil.
Qed.
