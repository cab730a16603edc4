(** What "the predicted layout is the real one" means, for either target. *)
From Verif.Base Require Import Int32 Mem MemProofs Bits.
From Verif.Ir Require Import Ph2 Ph2Sem Layout.

(** What the front end guarantees: every function has a block, block identities are
    distinct. *)
Definition well_formed (p : program) : Prop :=
  Forall (fun f => f_blocks f <> []) (p_funcs p) /\
  NoDup (p_sysbb p :: g_bb p :: allids (p_funcs p)).

(** [placed ws o w]: the words [w] occur in the image [ws] at byte offset [o]
    (Layout.v).  [adj] is the block as flattened: returns carry the frame size. *)
Record layout_correct (T : target) (p : program) (cs : Z) (e : env) (ws : list Z) : Prop := {
  (* the data section starts right after the code *)
  lc_code : e_code e = cs;
  lc_data : e_data e = cs + 4 * Z.of_nat (length ws);
  (* a function's frame set-up is at the address recorded for its entry block *)
  lc_func : forall f fn bl, nth_error (p_funcs p) f = Some fn -> nth_error (f_blocks fn) 0 = Some bl ->
    exists w, t_emit T e (e_bb e (b_id bl)) (define_ir (f_stack fn)) = Some w /\
      placed ws (e_bb e (b_id bl)) w;
  (* and a block's instructions are at the address recorded for it (after the
     16 bytes of frame set-up for the entry block) *)
  lc_block : forall f fn b bl, nth_error (p_funcs p) f = Some fn -> nth_error (f_blocks fn) b = Some bl ->
    exists w, emit_list T e (e_bb e (b_id bl) + match b with O => 16 | _ => 0 end) (adj T fn b bl) = Some w /\
      placed ws (e_bb e (b_id bl) + match b with O => 16 | _ => 0 end) w;
  (* a function name resolves to the address of its entry block *)
  lc_name : forall f fn bl, nth_error (p_funcs p) f = Some fn -> nth_error (f_blocks fn) 0 = Some bl ->
    f_name fn <> p_sysname p ->
    (forall f' fn', (f' < f)%nat -> nth_error (p_funcs p) f' = Some fn' -> f_name fn' <> f_name fn) ->
    e_fn e (f_name fn) = Some (e_bb e (b_id bl));
  (* the system call stub and the global initialiser *)
  lc_stub : exists w, t_stubs T e (g_stack p) (e_bb e (g_bb p)) = Some w /\ placed ws 0 w /\
    e_bb e (g_bb p) = 4 * Z.of_nat (length w) /\ e_bb e (p_sysbb p) = t_sysofs T /\
    e_fn e (p_sysname p) = Some (t_sysofs T) }.

Lemma layout_correct_of_facts T hard p cs e ws :
  (forall e g o w, t_stubs T e g o = Some w -> 4 * Z.of_nat (length w) = t_globofs T) ->
  layout_facts T hard p cs e ws -> layout_correct T p cs e ws.
Proof.
  intros Hst LF. constructor.
  - apply (lf_code _ _ _ _ _ _ LF).
  - apply (lf_data _ _ _ _ _ _ LF).
  - apply (function_emitted _ _ _ _ _ _ LF).
  - apply (block_emitted _ _ _ _ _ _ LF).
  - intros f fn bl Hf Hb Hn Hfirst. rewrite (lf_fn _ _ _ _ _ _ LF). unfold find_entry.
    destruct (Z.eqb_spec (f_name fn) (p_sysname p)); [contradiction|].
    assert (find (fun g => f_name g =? f_name fn) (p_funcs p) = Some fn) as ->.
    { clear - Hf Hfirst. revert f Hf Hfirst. induction (p_funcs p) as [|g r IH]; intros [|f] Hf Hfirst; cbn in *; try discriminate.
      - inversion Hf; subst. rewrite Z.eqb_refl. reflexivity.
      - destruct (Z.eqb_spec (f_name g) (f_name fn)) as [E|E].
        + exfalso. apply (Hfirst O g); [lia|reflexivity|exact E].
        + eapply IH; eauto. intros f' fn' Hlt H. apply (Hfirst (S f') fn'); [lia|exact H]. }
    destruct (f_blocks fn); cbn in *; [discriminate|]. inversion Hb; subst. reflexivity.
  - destruct (lf_stub _ _ _ _ _ _ LF) as (w & Ew & Pw). exists w.
    split; [exact Ew|]. split; [exact Pw|]. split; [|split].
    + rewrite (lf_gbb _ _ _ _ _ _ LF). symmetry. eapply Hst; eauto.
    + apply (lf_sys _ _ _ _ _ _ LF).
    + rewrite (lf_fn _ _ _ _ _ _ LF). unfold find_entry. rewrite Z.eqb_refl. cbn.
      f_equal. apply (lf_sys _ _ _ _ _ _ LF).
Qed.

(** A concrete program: main calls f(6,7), f multiplies (emulated), main exits with it. *)
Definition demo_i (o : opcode) (d s0 s1 : Z) : ph2 := mkph2 o s0 s1 d 0 0 0 0 false.
Definition demo_call (name : Z) : ph2 := mkph2 OP_call 0 0 0 name 0 0 0 false.
Definition demo_jump (b : Z) : ph2 := mkph2 OP_jump 0 0 0 0 b 0 0 false.
Definition demo_prog : program :=
  mkprog [demo_i OP_load_constant 0 70000 0; demo_i OP_global_store 0 0 0] 8 1
    [ mkfunc 10 4 [mkblock 20 [demo_i OP_load_constant 0 6 0; demo_i OP_load_constant 1 7 0;
                               demo_call 11; demo_jump 21];
                   mkblock 21 [demo_i OP_global_load 1 0 0; demo_i OP_add 0 0 1; demo_i OP_return 0 0 0]];
      mkfunc 11 4 [mkblock 22 [demo_i OP_mul 0 0 1; demo_i OP_return 0 0 0]] ] 20 12 0.
Definition demo_cs : Z := 65620.

Fixpoint mem_of (a : Z) (ws : list Z) : mem :=
  match ws with [] => fun _ => 0 | w :: r => stw (mem_of (a + 4) r) a w end.
Definition demo_os : osspec := mkos (fun _ => 1%nat) (fun _ _ _ => None).

Lemma demo_wf : well_formed demo_prog.
Proof.
  split.
  - repeat constructor; discriminate.
  - repeat constructor; cbn; intuition lia.
Qed.

