(** The pieces of the expression reader: what each adds, and that it computes what it should. *)
From Verif.Front Require Export ExprRun.
Open Scope Z_scope.

(** a piece that only appends instructions to the current block *)
Record adds (st : pst) (b : nat) (l : list rinsn) (st' : pst) : Prop := mkadds {
  ad_var : (p_var st <= p_var st')%nat;
  ad_blk : p_blk st' = p_blk st;
  ad_code : forall c, p_code st' c = if Nat.eqb c b then p_code st b ++ l else p_code st c;
  ad_next : p_next st' = p_next st; ad_then : p_then st' = p_then st; ad_else : p_else st' = p_else st;
  ad_init : forall v, (v < p_var st)%nat -> p_init st' v = p_init st v }.
Lemma adds_trans st b l st1 l' st2 : adds st b l st1 -> adds st1 b l' st2 -> adds st b (l ++ l') st2.
Proof.
  intros [v1 k1 c1 n1 t1 e1 i1] [v2 k2 c2 n2 t2 e2 i2]. constructor; try congruence; try lia.
  - intros c. rewrite c2, !c1. rewrite Nat.eqb_refl. destruct (Nat.eqb_spec c b); [rewrite app_assoc; reflexivity|reflexivity].
  - intros v Hv. rewrite i2 by lia. auto.
Qed.
Lemma adds_frame st b l st' : (b < p_blk st)%nat -> adds st b l st' -> frame [b] st b st' b.
Proof.
  intros L [v1 k1 c1 n1 t1 e1 i1]. constructor; auto; try lia.
  - intros c Hc N. cbn in N. unfold same. rewrite c1, n1, t1, e1. destruct (Nat.eqb_spec c b); [lia|]. auto.
  - intros c _. rewrite c1. destruct (Nat.eqb_spec c b) as [->|]; eexists; [reflexivity|rewrite app_nil_r; reflexivity].
  - left. reflexivity.
  - intros _. unfold edges. rewrite n1, t1, e1. auto.
  - intros H c Hc. unfold empty. rewrite c1, n1, t1, e1. destruct (Nat.eqb_spec c b); [lia|]. apply H. lia.
Qed.
Lemma adds_len st b l st' : adds st b l st' -> p_code st' b = p_code st b ++ l.
Proof. intros A. rewrite (ad_code _ _ _ _ A), Nat.eqb_refl. reflexivity. Qed.
Lemma adds_nil st b st' : p_var st' = p_var st -> p_blk st' = p_blk st -> p_code st' = p_code st -> p_next st' = p_next st -> p_then st' = p_then st ->
  p_else st' = p_else st -> p_init st' = p_init st -> adds st b [] st'.
Proof.
  intros A B C D E G H. constructor; auto; try lia.
  - intros c. rewrite C. rewrite app_nil_r. destruct (Nat.eqb_spec c b); congruence.
  - intros; congruence.
Qed.

Ltac inv H :=
  repeat match type of H with
  | match ?x with Some _ => _ | None => None end = Some _ => let E := fresh "E" in destruct x eqn:E; [|discriminate H]
  | (let '(_, _) := ?x in _) = Some _ => let E := fresh "E" in destruct x eqn:E
  | match (match ?p with (_, _) => _ end) with Some _ => _ | None => None end = Some _ => destruct p
  end.
Lemma some_inj {A} (x y : A) : Some x = Some y -> x = y.
Proof. congruence. Qed.

Ltac ps := unfold set_stack, set_init, add_insn; cbn [p_var p_blk p_code p_next p_then p_else p_pred p_init p_stack].

Section Pieces.
  Variable lim : nat.
  Lemma load_constant_adds c b st st' : load_constant lim c b st = Some st' ->
    adds st b [mkr (mkinsn OP_load_constant (Some (p_var st)) None None) 0 0] st' /\ p_stack st' = p_var st :: p_stack st /\
    p_var st' = S (p_var st) /\ p_init st' (p_var st) = c.
  Proof.
    unfold load_constant, require_var, opstack_push. destruct (_ <? lim)%nat; [|discriminate]. destruct (_ <? _)%nat; [|discriminate].
    intros E. apply some_inj in E. subst st'. cbn. unfold upd. rewrite Nat.eqb_refl. split; [|auto].
    constructor; cbn; auto. intros v Hv. unfold upd. destruct (Nat.eqb_spec v (p_var st)); [lia|reflexivity].
  Qed.
  Lemma unary_op_adds o b st st' : unary_op lim o b st = Some st' -> exists x l, p_stack st = x :: l /\
    adds st b [mkr (mkinsn o (Some (p_var st)) (Some x) None) 0 0] st' /\ p_stack st' = p_var st :: l /\ p_var st' = S (p_var st).
  Proof.
    unfold unary_op, opstack_pop, require_var, opstack_push. destruct (p_stack st) as [|x l] eqn:Q; [discriminate|].
    ps. destruct (_ <? lim)%nat; [|discriminate]. destruct (_ <? _)%nat; [|discriminate].
    intros E. apply some_inj in E. subst st'. exists x, l. split; [reflexivity|]. split; [constructor; cbn; auto|cbn; auto].
  Qed.
  Lemma binary_op_adds o b st st' : binary_op lim o b st = Some st' -> exists y x l, p_stack st = y :: x :: l /\
    adds st b [mkr (mkinsn o (Some (p_var st)) (Some x) (Some y)) 0 0] st' /\ p_stack st' = p_var st :: l /\ p_var st' = S (p_var st).
  Proof.
    unfold binary_op, opstack_pop, require_var, opstack_push. destruct (p_stack st) as [|y l] eqn:Q; [discriminate|].
    ps. destruct l as [|x l]; [discriminate|]. ps. destruct (_ <? lim)%nat; [|discriminate]. destruct (_ <? _)%nat; [|discriminate].
    intros E. apply some_inj in E. subst st'. exists y, x, l. split; [reflexivity|]. split; [constructor; cbn; auto|cbn; auto].
  Qed.
End Pieces.

(** ** The setting. *)
Definition opc (o : binop) : opcode :=
  match o with
  | BMul => OP_mul | BDiv => OP_div | BMod => OP_mod | BAdd => OP_add | BSub => OP_sub | Shl => OP_lshift | Shr => OP_rshift
  | BLt => OP_lt | BGt => OP_gt | BLe => OP_leq | BGe => OP_geq | BEq => OP_eq | BNe => OP_neq
  | BAnd => OP_bit_and | BXor => OP_bit_xor | BOr => OP_bit_or | LAnd => OP_log_and | LOr => OP_log_or
  end.
(** the instructions compute as C does, where C defines the result *)
Record c_like {world} (M : meaning Z world) : Prop := mkc {
  c_truth : forall v, m_truth M v = negb (v =? 0);
  c_const : forall c, m_const M c = c;
  c_bin : forall o a b r, o <> LAnd -> o <> LOr -> cbin o a b = Some r -> m_alu2 M (opc o) a b = Some r;
  c_neg : forall a, m_alu1 M OP_negate a = Some (cun UNeg a);
  c_compl : forall a, m_alu1 M OP_bit_not a = Some (cun UCompl a);
  c_not : forall a, m_alu1 M OP_log_not a = Some (cun UNot a) }.

Section Names.
  Variable find_constant : text -> option Z.
  Variable find_var : text -> option vinfo.
  Variable find_func : text -> option Z.
  Variable V : vars.
  Definition is_constant (x : text) : bool := match find_constant x with Some _ => true | None => false end.
  Definition is_pointer (x : text) : bool := match find_var x with Some v => negb (vi_ptr v =? 0) || negb (vi_array v =? 0) | None => false end.
  Definition is_global (x : text) : bool := match find_var x with Some v => v_global V (vi_id v) | None => false end.
  Definition is_variable (x : text) : bool := match find_var x with Some _ => true | None => false end.
  (** the size of x[i]: a pointer if x is an array of pointers or a pointer to a pointer *)
  Definition element_size (x : text) : Z :=
    match find_var x with
    | Some v => if (vi_ptr v =? 0) || ((vi_ptr v =? 1) && (vi_array v =? 0)) then vi_size v else 4
    | None => 0
    end.
  Context {world : Type}.
  Variable M : meaning Z world.
  Variable goff : nat -> Z.
  Variable e0 : nat -> option Z.                   (* the values of the local variables *)
  Definition lookup (x : text) (w : world) : option Z :=
    match find_constant x with
    | Some c => Some c
    | None => match find_var x with
              | Some v => if v_global V (vi_id v) then Some (m_gget M w (goff (vi_id v))) else e0 (vi_id v)
              | None => None
              end
    end.
  Definition do_call (f : text) (args : list Z) (w : world) (r : Z) (w' : world) : Prop :=
    exists k, find_func f = Some k /\ forall A, passes args A -> exists A', m_call M k A w = Some (w', A') /\ A' 0%nat = r.
End Names.

