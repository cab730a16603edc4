(** Specification for the register allocator: the meaning of the code before (variables) and after (registers and stack
    slots), and the form of the functions it is given.  Nothing here is taken from src/reg-alloc.c. *)
From Verif.Mid Require Export LiveSpec Graph Alloc.

(** What the instructions do.  Values, the world (memory, globals, input and output) and the operations are arbitrary; None:
    undefined behaviour.  [m_call f A w]: the function f is called with the registers A; it gives the world and the registers
    it leaves, the result in register 0. *)
Record meaning (val world : Type) := mkmeaning {
  m_truth : val -> bool;
  m_const : Z -> val; m_data : Z -> val;                     (* constants, addresses in the data section *)
  m_frame : Z -> val; m_gaddr : Z -> val;                    (* addresses in the stack frame, of globals *)
  m_alu1 : opcode -> val -> option val; m_alu2 : opcode -> val -> val -> option val;
  m_read : Z -> val -> world -> option val; m_write : Z -> val -> val -> world -> option world;
  m_writef : val -> Z -> world -> option world;              (* store the address of a function *)
  m_call : Z -> (nat -> val) -> world -> option (world * (nat -> val));
  m_calli : val -> (nat -> val) -> world -> option (world * (nat -> val));
  m_gget : world -> Z -> val; m_gput : world -> Z -> val -> world }.   (* the global at an offset *)
Arguments m_truth {_ _}. Arguments m_const {_ _}. Arguments m_data {_ _}. Arguments m_frame {_ _}. Arguments m_gaddr {_ _}.
Arguments m_alu1 {_ _}. Arguments m_alu2 {_ _}. Arguments m_read {_ _}. Arguments m_write {_ _}. Arguments m_writef {_ _}.
Arguments m_call {_ _}. Arguments m_calli {_ _}. Arguments m_gget {_ _}. Arguments m_gput {_ _}.

Definition binary (o : opcode) : bool :=
  match o with
  | OP_add | OP_sub | OP_mul | OP_div | OP_mod | OP_lshift | OP_rshift | OP_eq | OP_neq | OP_gt | OP_geq | OP_lt | OP_leq
  | OP_bit_and | OP_bit_or | OP_bit_xor => true | _ => false end.
Definition unary (o : opcode) : bool := match o with OP_negate | OP_bit_not | OP_log_not => true | _ => false end.

(** ** Before: any number of variables.  A local variable may have no value yet. *)
Section Before.
  Context {val world : Type}.
  Variable M : meaning val world.
  Variable V : vars.
  Variable goff : nat -> Z.                        (* where the globals are *)
  Variable place : nat -> val.                     (* where the local arrays and structures are *)

  Record senv := mks { s_env : nat -> option val; s_world : world;
                       s_args : list val;          (* arguments passed so far to the next call *)
                       s_ret : option val }.       (* result of the call just made *)
  Definition get (s : senv) (v : nat) : option val :=
    if v_global V v then Some (m_gget M (s_world s) (goff v)) else s_env s v.
  (** the state after giving v the value x; for a local, x may be "no value yet" *)
  Definition set (s : senv) (v : nat) (x : option val) : option senv :=
    if v_global V v then match x with Some x => Some (mks (s_env s) (m_gput M (s_world s) (goff v) x) [] None) | None => None end
    else Some (mks (upd (s_env s) v x) (s_world s) [] None).
  Definition passes (args : list val) (A : nat -> val) : Prop := forall j a, nth_error args j = Some a -> A j = a.

  (** one instruction that does not end the block.  A call is defined when the callee looks at no argument that was not
      passed.  The address of a local variable (OP_address_of) is given no meaning: see C40's claim. *)
  Inductive sstep : rinsn -> senv -> senv -> Prop :=
  | s_phi d x sz str s s' : s_args s = [] -> v_global V d = false -> set s d (get s x) = Some s' ->
      forall y, sstep (mkr (mkinsn OP_unwound_phi (Some d) (Some x) y) sz str) s s'
  | s_decl d x y sz str s s' : s_args s = [] -> no_storage V d = true -> v_global V d = false -> set s d None = Some s' ->
      sstep (mkr (mkinsn OP_allocat (Some d) x y) sz str) s s'
  | s_storage d x y sz str s s' : s_args s = [] -> no_storage V d = false -> v_global V d = false -> set s d (Some (place d)) = Some s' ->
      sstep (mkr (mkinsn OP_allocat (Some d) x y) sz str) s s'
  | s_const d x y sz str s s' : s_args s = [] -> set s d (Some (m_const M (v_init V d))) = Some s' ->
      sstep (mkr (mkinsn OP_load_constant (Some d) x y) sz str) s s'
  | s_data d x y sz str s s' : s_args s = [] -> set s d (Some (m_data M (v_init V d))) = Some s' ->
      sstep (mkr (mkinsn OP_load_data_address (Some d) x y) sz str) s s'
  | s_addr d x y sz str s s' : s_args s = [] -> v_global V x = true -> set s d (Some (m_gaddr M (goff x))) = Some s' ->
      sstep (mkr (mkinsn OP_address_of (Some d) (Some x) y) sz str) s s'
  | s_assign d x y sz str s s' : s_args s = [] -> set s d (get s x) = Some s' ->
      sstep (mkr (mkinsn OP_assign (Some d) (Some x) y) sz str) s s'
  | s_read d x y sz str s s' a r : s_args s = [] -> get s x = Some a -> m_read M sz a (s_world s) = Some r -> set s d (Some r) = Some s' ->
      sstep (mkr (mkinsn OP_read (Some d) (Some x) y) sz str) s s'
  | s_write d x y sz str s a r w : s_args s = [] -> v_func V y = None -> get s x = Some a -> get s y = Some r ->
      m_write M sz a r (s_world s) = Some w ->
      sstep (mkr (mkinsn OP_write d (Some x) (Some y)) sz str) s (mks (s_env s) w [] None)
  | s_writef d x y sz str s a f w : s_args s = [] -> v_func V y = Some f -> get s x = Some a ->
      m_writef M a f (s_world s) = Some w ->
      sstep (mkr (mkinsn OP_write d (Some x) (Some y)) sz str) s (mks (s_env s) w [] None)
  | s_push d x y sz str s a : get s x = Some a ->
      sstep (mkr (mkinsn OP_push d (Some x) y) sz str) s (mks (s_env s) (s_world s) (s_args s ++ [a]) None)
  | s_call d x y sz str s w r :
      (forall A, passes (s_args s) A -> exists A', m_call M str A (s_world s) = Some (w, A') /\ A' 0%nat = r) ->
      sstep (mkr (mkinsn OP_call d x y) sz str) s (mks (s_env s) w [] (Some r))
  | s_calli d x y sz str s a w r : get s x = Some a ->
      (forall A, passes (s_args s) A -> exists A', m_calli M a A (s_world s) = Some (w, A') /\ A' 0%nat = r) ->
      sstep (mkr (mkinsn OP_indirect d (Some x) y) sz str) s (mks (s_env s) w [] (Some r))
  | s_result d x y sz str s s' r : s_args s = [] -> s_ret s = Some r -> set s d (Some r) = Some s' ->
      sstep (mkr (mkinsn OP_func_ret (Some d) x y) sz str) s s'
  | s_binary o d x y sz str s s' a c r : binary o = true -> s_args s = [] -> get s x = Some a -> get s y = Some c ->
      m_alu2 M o a c = Some r -> set s d (Some r) = Some s' ->
      sstep (mkr (mkinsn o (Some d) (Some x) (Some y)) sz str) s s'
  | s_unary o d x y sz str s s' a r : unary o = true -> s_args s = [] -> get s x = Some a ->
      m_alu1 M o a = Some r -> set s d (Some r) = Some s' ->
      sstep (mkr (mkinsn o (Some d) (Some x) y) sz str) s s'.

  Variable code : nat -> list rinsn.
  Variables next then_ else_ : nat -> option nat.
  Variable exit : nat.
  Variable void : bool.
  (** how the instructions of a block end *)
  Inductive send : Type := SFall (s : senv) | SBranch (x : val) (s : senv) | SRet (x : option val) (w : world).
  Inductive sblock : list rinsn -> senv -> send -> Prop :=
  | sb_nil s : sblock [] s (SFall s)
  | sb_cons i l s s' e : sstep i s s' -> sblock l s' e -> sblock (i :: l) s e
  | sb_branch d x y sz str l s a : get s x = Some a -> s_args s = [] ->
      sblock (mkr (mkinsn OP_branch d (Some x) y) sz str :: l) s (SBranch a s)
  | sb_return d x y sz str l s a : get s x = Some a -> s_args s = [] ->
      sblock (mkr (mkinsn OP_return d (Some x) y) sz str :: l) s (SRet (Some a) (s_world s))
  | sb_return_void d y sz str l s : s_args s = [] ->
      sblock (mkr (mkinsn OP_return d None y) sz str :: l) s (SRet None (s_world s)).
  (** the function, started at block b, ends leaving the world w and returning r *)
  Inductive sruns : nat -> senv -> world -> option val -> Prop :=
  | sr_return b s w r : sblock (code b) s (SRet r w) -> sruns b s w r
  | sr_end b s s' : sblock (code b) s (SFall s') -> next b = Some exit -> void = true -> sruns b s (s_world s') None
  | sr_next b s s' c w r : sblock (code b) s (SFall s') -> next b = Some c -> c <> exit ->
      sruns c (mks (s_env s') (s_world s') [] None) w r -> sruns b s w r
  | sr_branch b s s' x t e w r : sblock (code b) s (SBranch x s') -> then_ b = Some t -> else_ b = Some e ->
      sruns (if m_truth M x then t else e) (mks (s_env s') (s_world s') [] None) w r -> sruns b s w r.
End Before.
Arguments mks {val world}. Arguments s_env {val world}. Arguments s_world {val world}. Arguments s_args {val world}.
Arguments s_ret {val world}. Arguments send : clear implicits. Arguments SFall {val world}. Arguments SBranch {val world}.
Arguments SRet {val world}.

(** ** After: registers and stack slots. *)
Section After.
  Context {val world : Type}.
  Variable M : meaning val world.
  Record mstate := mkm { t_reg : nat -> val; t_slot : Z -> val; t_world : world; t_latch : option val }.
  Inductive mend : Type := MFall (m : mstate) | MGoto (b : nat) (m : mstate) | MRet (x : option val) (w : world).
  Definition rset (m : mstate) (d : Z) (x : val) : mstate := mkm (upd (t_reg m) (Z.to_nat d) x) (t_slot m) (t_world m) (t_latch m).
  Definition rget (m : mstate) (r : Z) : val := t_reg m (Z.to_nat r).
  Definition after_call (m : mstate) (o : option (world * (nat -> val))) : option mstate :=
    match o with Some (w, A) => Some (mkm A (t_slot m) w None) | None => None end.
  Definition to_opt (m : mstate) (d : Z) (o : option val) : option mstate :=
    match o with Some x => Some (rset m d x) | None => None end.
  Definition to_world (m : mstate) (o : option world) : option mstate :=
    match o with Some w => Some (mkm (t_reg m) (t_slot m) w (t_latch m)) | None => None end.
  (** one instruction that does not end the block *)
  Definition mstep (p : ph2) (m : mstate) : option mstate :=
    match p_op p with
    | OP_load_constant => Some (rset m (p_dest p) (m_const M (p_src0 p)))
    | OP_load_data_address => Some (rset m (p_dest p) (m_data M (p_src0 p)))
    | OP_address_of => Some (rset m (p_dest p) (m_frame M (p_src0 p)))
    | OP_global_address_of => Some (rset m (p_dest p) (m_gaddr M (p_src0 p)))
    | OP_assign => Some (rset m (p_dest p) (rget m (p_src0 p)))
    | OP_load => Some (rset m (p_dest p) (t_slot m (p_src0 p)))
    | OP_store => Some (mkm (t_reg m) (fun o => if o =? p_src1 p then rget m (p_src0 p) else t_slot m o) (t_world m) (t_latch m))
    | OP_global_load => Some (rset m (p_dest p) (m_gget M (t_world m) (p_src0 p)))
    | OP_global_store => Some (mkm (t_reg m) (t_slot m) (m_gput M (t_world m) (p_src1 p) (rget m (p_src0 p))) (t_latch m))
    | OP_read => to_opt m (p_dest p) (m_read M (p_src1 p) (rget m (p_src0 p)) (t_world m))
    | OP_write => to_world m (m_write M (p_dest p) (rget m (p_src0 p)) (rget m (p_src1 p)) (t_world m))
    | OP_address_of_func => to_world m (m_writef M (rget m (p_src0 p)) (p_func p) (t_world m))
    | OP_call => after_call m (m_call M (p_func p) (t_reg m) (t_world m))
    | OP_load_func => Some (mkm (t_reg m) (t_slot m) (t_world m) (Some (rget m (p_src0 p))))
    | OP_indirect => match t_latch m with Some a => after_call m (m_calli M a (t_reg m) (t_world m)) | None => None end
    | o => if binary o then to_opt m (p_dest p) (m_alu2 M o (rget m (p_src0 p)) (rget m (p_src1 p)))
           else if unary o then to_opt m (p_dest p) (m_alu1 M o (rget m (p_src0 p)))
           else None
    end.
  Fixpoint mblock (l : list ph2) (m : mstate) : option mend :=
    match l with
    | [] => Some (MFall m)
    | p :: r =>
        match p_op p with
        | OP_branch => Some (MGoto (Z.to_nat (if m_truth M (rget m (p_src0 p)) then p_then p else p_else p)) m)
        | OP_jump => Some (MGoto (Z.to_nat (p_next p)) m)
        | OP_return => Some (MRet (if p_src0 p =? -1 then None else Some (rget m (p_src0 p))) (t_world m))
        | _ => match mstep p m with Some m => mblock r m | None => None end
        end
    end.
  (** the blocks in the order they are laid out; a block that does not jump falls into the next one *)
  Variable prog : list (nat * list ph2).
  Inductive mruns : nat -> mstate -> world -> option val -> Prop :=
  | mr_return l1 b l l2 m w r : prog = l1 ++ (b, l) :: l2 -> mblock l m = Some (MRet r w) -> mruns b m w r
  | mr_goto l1 b l l2 m c m' w r : prog = l1 ++ (b, l) :: l2 -> mblock l m = Some (MGoto c m') -> mruns c m' w r -> mruns b m w r
  | mr_fall l1 b l c l' l2 m m' w r : prog = l1 ++ (b, l) :: (c, l') :: l2 -> mblock l m = Some (MFall m') -> mruns c m' w r -> mruns b m w r.
End After.
Arguments mkm {val world}. Arguments t_reg {val world}. Arguments t_slot {val world}. Arguments t_world {val world}.
Arguments t_latch {val world}. Arguments MFall {val world}. Arguments MGoto {val world}. Arguments MRet {val world}.
Arguments mend : clear implicits.

(** storing a global changes that global, and no other *)
Definition separate_globals {val world} (M : meaning val world) (V : vars) (goff : nat -> Z) : Prop :=
  (forall w o x, m_gget M (m_gput M w o x) o = x) /\
  forall u v w x, v_global V u = true -> v_global V v = true -> u <> v -> m_gget M (m_gput M w (goff u) x) (goff v) = m_gget M w (goff v).

(** ** The functions given to the allocator. *)
Section Form.
  Variable V : vars.
  Variable g : cfg.
  Variable code : nat -> list rinsn.
  Variables entry exit : nat.
  Variable params : list nat.
  Variable order : list nat.
  Variable rpo : nat -> Z.
  Variable live_out : nat -> list nat.
  Variable killed : nat -> nat -> bool.
  Variable cons : nat -> Z.
  Variable arity : Z -> Z.
  Definition plain_code (b : nat) : list insn := map r_insn (code b).
  (** i gives v a value (the declaration of a scalar does not) *)
  Definition gives (i : insn) (v : nat) : Prop := i_rd i = Some v /\ ~ (i_op i = OP_allocat /\ no_storage V v = true).
  Definition forgets (i : insn) (v : nat) : Prop := i_rd i = Some v /\ i_op i = OP_allocat /\ no_storage V v = true.
  (** after the instructions t, v has been given a value *)
  Definition assigned (t : list insn) (v : nat) : Prop :=
    exists t1 i t2, t = t1 ++ i :: t2 /\ gives i v /\ forall j, In j t2 -> ~ forgets j v.
  Definition assigned_or_param (t : list insn) (v : nat) : Prop :=
    assigned t v \/ In v params /\ forall j, In j t -> ~ forgets j v.
  (** v is read nowhere at an index beyond n, and passed to no call beyond n *)
  Definition used_until (v : nat) (n : Z) : Prop :=
    cons v <= n /\ forall b k i, In b order -> nth_error (code b) k = Some i -> i_op (r_insn i) = OP_push -> i_rs1 (r_insn i) = Some v ->
      Z.of_nat k + r_sz i <= n.
  (** the two kinds of blocks other than the exit *)
  Inductive shape (b : nat) : Prop :=
  | shape_next c : g_next g b = Some c -> g_then g b = None -> g_else g b = None -> (forall i, In i (plain_code b) -> i_op i <> OP_branch) -> shape b
  | shape_branch t e l i : g_next g b = None -> g_then g b = Some t -> g_else g b = Some e -> plain_code b = l ++ [i] ->
      i_op i = OP_branch -> (forall j, In j l -> i_op j <> OP_branch) -> shape b.
  Record allocatable : Prop := mkok {
    (* the order of the blocks: each is entered from an earlier one; their numbers are consecutive *)
    o_start : exists l, order = entry :: l;
    o_nodup : NoDup order;
    o_closed : forall b c, In b order -> In c (succs g b) -> In c order;
    o_forward : forall l1 b l2, order = l1 ++ b :: l2 -> b = entry \/ exists p, In p l1 /\ In b (succs g p);
    o_rpo : forall l1 b c l2, order = l1 ++ b :: c :: l2 -> rpo c = rpo b + 1;
    o_rpo_inj : forall b c, In b order -> In c order -> rpo b = rpo c -> b = c;
    o_entry : forall b, In b order -> ~ In entry (succs g b);
    o_shape : forall b, In b order -> b <> exit -> shape b;
    o_exit : code exit = [] /\ succs g exit = [] /\ exit <> entry;
    (* the results of the liveness analysis (C39) *)
    l_needed : forall b v, In b order -> v_global V v = false -> needed (succs g) plain_code v b -> In v (live_out b);
    l_consumed : forall b k i v, In b order -> nth_error (plain_code b) k = Some i -> reads i v -> Z.of_nat k <= cons v;
    l_killed : forall b i v, In b order -> In i (plain_code b) -> writes i v -> killed v b = true;
    l_params : forall v, In v params -> killed v entry = true;
    (* parameters and destinations *)
    v_params : NoDup params /\ (length params <= 8)%nat /\ forall v, In v params -> v_global V v = false;
    (* a local variable that is read has been given a value on every way there, or never is (uninitialised) *)
    v_strict : forall b k i v, In b order -> nth_error (plain_code b) k = Some i -> reads i v -> v_global V v = false ->
      (forall l, walk (succs g) entry (l ++ [b]) b -> assigned_or_param (flat_map plain_code l ++ firstn k (plain_code b)) v) \/
      (~ In v params /\ forall c j, In c order -> In j (plain_code c) -> ~ gives j v);
    (* globals are only assigned, by instructions that are not useless *)
    v_globals : forall b i d, In b order -> In i (plain_code b) -> i_rd i = Some d -> v_global V d = true ->
      In (i_op i) [OP_assign; OP_load_constant; OP_load_data_address] /\ 0 <= cons d;
    (* these instructions have no destination *)
    v_dest : forall b i, In b order -> In i (plain_code b) ->
      In (i_op i) [OP_write; OP_push; OP_call; OP_indirect; OP_branch; OP_return] -> i_rd i = None;
    (* only the addresses of globals are taken (arrays and structures are addresses already) *)
    v_address : forall b i v, In b order -> In i (plain_code b) -> i_op i = OP_address_of -> i_rs1 i = Some v -> v_global V v = true;
    (* storage for an array or a structure is declared once, and the variable is not assigned otherwise *)
    v_storage : forall b i d, In b order -> In i (plain_code b) -> i_rd i = Some d -> i_op i = OP_allocat -> no_storage V d = false ->
      v_global V d = false /\ ~ In d params /\
      forall c j k1 k2, In c order -> nth_error (plain_code c) k2 = Some j -> i_rd j = Some d -> nth_error (plain_code b) k1 = Some i -> c = b /\ k1 = k2;
    (* a copy made from a phi instruction: its target is not touched otherwise in the same block from there on *)
    v_copies : forall b l1 i l2 d, In b order -> plain_code b = l1 ++ i :: l2 -> i_op i = OP_unwound_phi -> i_rd i = Some d ->
      v_global V d = false /\ (forall j, In j l2 -> ~ reads j d) /\ (forall j, In j (plain_code b) -> ~ writes j d) /\ (b = entry -> ~ In d params);
    (* arguments are passed right before the call, and know how many are left *)
    v_push : forall b k i, In b order -> nth_error (code b) k = Some i -> i_op (r_insn i) = OP_push ->
      exists j, nth_error (code b) (S k) = Some j /\
        (1 <= r_sz i) /\
        (r_sz i = 1 -> i_op (r_insn j) = OP_call \/ i_op (r_insn j) = OP_indirect) /\
        (1 < r_sz i -> i_op (r_insn j) = OP_push /\ r_sz j = r_sz i - 1);
    (* a function called without arguments has no parameters *)
    v_call : forall b k i, In b order -> nth_error (code b) k = Some i -> i_op (r_insn i) = OP_call -> arity (r_str i) = 0 \/
      exists j k', k = S k' /\ nth_error (code b) k' = Some j /\ i_op (r_insn j) = OP_push;
    (* what is passed to a call through a pointer, and the pointer, is not used afterwards *)
    v_indirect : forall b l1 l2 l3 i v, In b order -> plain_code b = l1 ++ l2 ++ i :: l3 -> i_op i = OP_indirect ->
      (forall j, In j l2 -> i_op j = OP_push) -> (exists j, In j (i :: l2) /\ i_rs1 j = Some v) ->
      ~ In v (live_out b) /\ used_until v (Z.of_nat (length (l1 ++ l2)));
    (* after a write, the globals among its operands are read again only after being assigned; after storing the address
       of a function no global is *)
    v_write : forall b l1 i l2 v, In b order -> plain_code b = l1 ++ i :: l2 -> i_op i = OP_write -> v_global V v = true ->
      reads i v \/ (exists y f, i_rs2 i = Some y /\ v_func V y = Some f) -> ~ exposed l2 v;
    v_self : forall b i v, In b order -> In i (plain_code b) -> i_op i = OP_assign -> i_rd i = Some v -> i_rs1 i <> Some v }.
End Form.

(** ** Clashes.  [careful]: in this run of the allocator no instruction gets the same register for two different operands, no
    copy has its source loaded into the register of its destination, and an argument is always loaded into a free register. *)
Section Careful.
  Variable V : vars.
  Variable live_out : nat -> list nat.
  Variable killed : nat -> nat -> bool.
  Variable arity : Z -> Z.
  Variables next then_ else_ : nat -> option nat.
  Definition has_room (v : nat) (s : ra) : bool :=
    match find_in_regs v s, find_free s with None, None => false | _, _ => true end.
  Definition differ (b x y : nat) (s : ra) : bool :=
    let '(r0, s) := prepare_operand V live_out b x None s in
    let '(r1, s) := prepare_operand V live_out b y (Some r0) s in Nat.eqb x y || negb (Nat.eqb r0 r1).
  Definition careful_insn (b : nat) (idx : Z) (i : rinsn) (s : ra) : bool :=
    let n := r_insn i in
    match i_op n, i_rd n, i_rs1 n, i_rs2 n with
    | OP_assign, Some d, Some x, _ =>
        match find_in_regs x s with
        | Some _ => true
        | None => let '(r0, s) := prepare_operand V live_out b x None s in
                  negb (Nat.eqb r0 (fst (prepare_dest V live_out b d (Some r0) None s)))
        end
    | OP_write, _, Some x, Some y => match v_func V y with Some _ => true | None => differ b x y (spill_alive V live_out b idx s) end
    | OP_push, _, Some x, _ =>
        let s := extend_liveness live_out b idx x (r_sz i) s in
        has_room x (if a_push s then s else spill_alive V live_out b idx s)
    | OP_indirect, _, Some x, _ => if Nat.eqb (a_args s) 0 then true else has_room x s
    | o, Some d, Some x, Some y => if binary o then differ b x y s else true
    | _, _, _, _ => true
    end.
  Fixpoint careful_insns (b : nat) (idx : Z) (l : list rinsn) (s : ra) : bool :=
    match l with
    | [] => true
    | i :: r => careful_insn b idx i (refresh live_out b idx s) &&
                match alloc_insn V live_out killed arity then_ else_ b idx i s with
                | None => true
                | Some s => careful_insns b (idx + 1) r s
                end
    end.
  Variable rpo : nat -> Z.
  Variable exit : nat.
  Variable code : nat -> list rinsn.
  Fixpoint careful_blocks (done order : list nat) (pre : list ph2) (s : ra) : bool :=
    match order with
    | [] => true
    | b :: r =>
        careful_insns b 0 (code b) (mkra (a_var s) (a_pol s) (a_off s) (a_size s) (a_cons s) pre false 0) &&
        match alloc_block V live_out killed arity next then_ else_ rpo exit code done b pre s with
        | None => true
        | Some s => careful_blocks (b :: done) r [] s
        end
    end.
  Variable params : list nat.
  Variable va_args : bool.
  Definition careful (order : list nat) (s : ra) : bool :=
    let s := store_params params va_args (start_regs params (mkra (a_var s) (a_pol s) (a_off s) (a_size s) (a_cons s) [] false 0)) in
    careful_blocks [] order (a_code s) s.
End Careful.
