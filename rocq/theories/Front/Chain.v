(** Operator-precedence evaluation with two stacks, as read_expr and read_global_assignment do it,
    related to expression trees.  Generic in the operators, their priorities, and what applying one does. *)
From Coq Require Export Sorted.
From Verif.Base Require Export Int32.
Open Scope Z_scope.

Section Chain.
  Context {A Op : Type}.
  Variable prio : Op -> Z.
  Variable app : Op -> A -> A -> option A.

  (** trees with operators at the nodes *)
  Inductive tree := Leaf (a : A) | Node (o : Op) (l r : tree).
  Fixpoint teval (t : tree) : option A :=
    match t with
    | Leaf a => Some a
    | Node o l r => match teval l with
                    | Some x => match teval r with Some y => app o x y | None => None end
                    | None => None
                    end
    end.
  Fixpoint first (t : tree) : A := match t with Leaf a => a | Node _ l _ => first l end.
  Fixpoint rest (t : tree) : list (Op * A) :=
    match t with Leaf _ => [] | Node o l r => rest l ++ (o, first r) :: rest r end.
  Fixpoint twf (p : Z) (t : tree) : Prop :=
    match t with Leaf _ => True | Node o l r => p <= prio o /\ twf (prio o) l /\ twf (prio o + 1) r end.

  (** pop and apply the operators whose priority is at least [p]; tops of the stacks come first *)
  Fixpoint reduce (p : Z) (ops : list Op) (vals : list A) : option (list Op * list A) :=
    match ops with
    | [] => Some ([], vals)
    | o :: ops' =>
        if prio o >=? p then
          match vals with
          | y :: x :: vals' => match app o x y with Some z => reduce p ops' (z :: vals') | None => None end
          | _ => None
          end
        else Some (ops, vals)
    end.
  Fixpoint unwind (ops : list Op) (vals : list A) : option A :=
    match ops with
    | [] => match vals with v :: _ => Some v | [] => None end
    | o :: ops' =>
        match vals with
        | y :: x :: vals' => match app o x y with Some z => unwind ops' (z :: vals') | None => None end
        | _ => None
        end
    end.
  Fixpoint run (ops : list Op) (vals : list A) (k : list (Op * A)) : option A :=
    match k with
    | [] => unwind ops vals
    | (o, a) :: k' =>
        match reduce (prio o) ops vals with
        | Some (ops, vals) => run (o :: ops) (a :: vals) k'
        | None => None
        end
    end.

  Definition above (p : Z) (ops : list Op) : Prop := match ops with [] => True | o :: _ => prio o < p end.
  Definition below (p : Z) (k : list (Op * A)) : Prop := match k with [] => True | (o, _) :: _ => prio o <= p end.

  (** a subexpression behaves like an operand holding its value *)
  Lemma run_tree t : forall p ops vals k v,
    twf p t -> above p ops -> below p k -> teval t = Some v ->
    run ops (first t :: vals) (rest t ++ k) = run ops (v :: vals) k.
  Proof.
    induction t as [a|o l IHl r IHr]; intros p ops vals k v W Ab Be E; cbn [first rest teval twf] in *.
    - injection E as ->. reflexivity.
    - destruct W as (Hp & Wl & Wr). destruct (teval l) as [x|] eqn:El; [|discriminate]. destruct (teval r) as [y|] eqn:Er; [|discriminate].
      rewrite <- app_assoc. cbn [List.app].
      rewrite (IHl (prio o) ops vals ((o, first r) :: rest r ++ k) x); auto; [|destruct ops; cbn in *; lia|cbn; lia].
      cbn [run].
      assert (R : reduce (prio o) ops (x :: vals) = Some (ops, x :: vals)).
      { destruct ops as [|o' ops']; [reflexivity|]. cbn [reduce above] in *. destruct (Z.geb_spec (prio o') (prio o)); [lia|reflexivity]. }
      rewrite R. rewrite (IHr (prio o + 1) (o :: ops) (x :: vals) k y); auto; [|cbn; lia|destruct k as [|[o' ?] ?]; cbn in *; lia].
      destruct k as [|[o' b] k']; cbn [run].
      + cbn [unwind]. rewrite E. reflexivity.
      + cbn [below] in Be. cbn [reduce]. destruct (Z.geb_spec (prio o) (prio o')); [|lia]. rewrite E. reflexivity.
  Qed.
  Theorem run_correct t p v : twf p t -> teval t = Some v -> run [] [first t] (rest t) = Some v.
  Proof.
    intros W E. pose proof (run_tree t p [] [] [] v W I I E) as H. rewrite app_nil_r in H. rewrite H. reflexivity.
  Qed.

  (** ** the stacks stay small: priorities strictly increase towards the top *)
  Definition increasing (ops : list Op) : Prop := StronglySorted (fun a b => prio b < prio a) ops.
  Lemma reduce_inv p ops : forall vals ops' vals', increasing ops -> reduce p ops vals = Some (ops', vals') ->
    increasing ops' /\ (forall o, In o ops' -> In o ops) /\ (forall o, In o ops' -> prio o < p) /\ (length vals' + length ops = length vals + length ops')%nat /\ (length ops' <= length ops)%nat.
  Proof.
    induction ops as [|o ops IH]; intros vals ops' vals' S E; cbn [reduce] in E.
    - injection E as <- <-. repeat split; auto; try constructor. intros ? [].
    - destruct (Z.geb_spec (prio o) p) as [H|H].
      + destruct vals as [|y [|x vals]]; try discriminate. destruct (app o x y) as [z|]; [|discriminate].
        inversion S as [|? ? S' _]; subst. destruct (IH _ _ _ S' E) as (I1 & I2 & I3 & I4 & I5). cbn [length] in *. repeat split; auto; try lia.
        intros o' Ho. right. auto.
      + injection E as <- <-. repeat split; auto.
        intros o' [<-|Ho]; [exact H|]. inversion S as [|? ? _ F]; subst. rewrite Forall_forall in F. specialize (F _ Ho). lia.
  Qed.
  Lemma increasing_short ops P : increasing ops -> (forall o, In o ops -> In (prio o) P) -> (length ops <= length P)%nat.
  Proof.
    clear app. intros S H. rewrite <- (map_length prio ops). apply NoDup_incl_length.
    - induction S as [|o ops S IH F]; cbn [map]; constructor.
      + intros Hin. apply in_map_iff in Hin. destruct Hin as (o' & Eo & Ho). rewrite Forall_forall in F. specialize (F _ Ho). lia.
      + apply IH. intros o' Ho. apply H. right. exact Ho.
    - intros q Hq. apply in_map_iff in Hq. destruct Hq as (o & <- & Ho). auto.
  Qed.
End Chain.
Arguments tree : clear implicits.
