(** C27, C28, C29: malloc, free and calloc of the embedded libc, for every history of calls and
    of writes the program is entitled to. *)
From Coq Require Import Permutation.
From Verif.Lib Require Import CMem LibcMalloc MallocProofs MallocProofs2 MallocProofs3 MallocProofs4 MallocProofs5.
Open Scope Z_scope.

(** *** Specification *)
(** the bytes of the allocator's three global variables *)
Definition allocator_variable (E : env) (x : Z) : Prop :=
  g_head E <= x < g_head E + 4 \/ g_tail E <= x < g_tail E + 4 \/ g_free E <= x < g_free E + 4.
(** program start: the three variables are zero (fresh); the rest of the accessible memory is the program's *)
Definition own (E : env) (h0 : heap) (x : Z) : Prop := h0 x <> None /\ ~ allocator_variable E x.

(** memory, live blocks (address, size asked for), freed blocks not handed out again *)
Record world := { mem : heap; live : list (Z * Z); freed : list (Z * Z) }.

(** sizes for which the 12-byte header does not need another page: see C27_reuse_refuted *)
Definition fits (size : Z) : Prop := 0 < size <= 2147479540 /\ (size - 1) mod 4096 < 4084.

Definition forget (p : Z) (l : list (Z * Z)) : list (Z * Z) := filter (fun x => negb (fst x =? p)) l.

(** what a program may do: allocate, free a live block, free NULL, write into its live blocks
    and into its own memory *)
Inductive step (E : env) (h0 : heap) : world -> world -> Prop :=
| step_malloc w size p h' : fits size -> evals (fun F => malloc E F size) (mem w) p h' ->
    step E h0 w {| mem := h'; live := (p, size) :: live w; freed := forget p (freed w) |}
| step_calloc w n size p h' : 0 <= n -> 0 <= size -> fits (n * size) -> evals (fun F => calloc E F n size) (mem w) p h' ->
    step E h0 w {| mem := h'; live := (p, n * size) :: live w; freed := forget p (freed w) |}
| step_free w p n h' : In (p, n) (live w) -> free E p (mem w) = Some (false, h') ->
    step E h0 w {| mem := h'; live := forget p (live w); freed := (p, n) :: freed w |}
| step_null w h' : free E 0 (mem w) = Some (false, h') -> step E h0 w {| mem := h'; live := live w; freed := freed w |}
| step_write w p n x v : In (p, n) (live w) -> p <= x < p + n ->
    step E h0 w {| mem := upd (mem w) x v; live := live w; freed := freed w |}
| step_own w x v : own E h0 x -> step E h0 w {| mem := upd (mem w) x v; live := live w; freed := freed w |}.

Inductive history (E : env) (h0 : heap) : world -> Prop :=
| hist_start : history E h0 {| mem := h0; live := []; freed := [] |}
| hist_step w w' : history E h0 w -> step E h0 w w' -> history E h0 w'.

(** contents of all live blocks and of the program's own memory are the same *)
Definition untouched (E : env) (h0 : heap) (l : list (Z * Z)) (h h' : heap) : Prop :=
  (forall p n x, In (p, n) l -> p <= x < p + n -> h' x = h x) /\ (forall x, own E h0 x -> h' x = h x).

(** the outcome of a successful allocation: a non-null aligned pointer to [size] accessible bytes, which
    overlap neither a live block nor memory of the program, whose contents are untouched *)
Record allocated (E : env) (h0 : heap) (w : world) (size p : Z) (h' : heap) : Prop := {
  al_ptr : 0 < p /\ p mod 4 = 0;
  al_usable : accessible h' p size;
  al_apart : forall q n, In (q, n) (live w) -> apart p size q n;
  al_own : forall x, own E h0 x -> x < p \/ p + size <= x;
  al_keeps : untouched E h0 (live w) (mem w) h' }.
(** the block is zero *)
Definition cleared (h' : heap) (p n : Z) : Prop := forall x, p <= x < p + n -> h' x = Some 0.

(** *** Invariant *)
Record inv (E : env) (h0 : heap) (w : world) (a0 fs : Z) (al fl : list (Z * Z)) : Prop := {
  inv_ready : ready E (mem w) a0 fs al fl;
  inv_live : forall p s, In (p, s) (live w) -> exists n, In (p - HDR, n) al /\ s + HDR <= n /\ 0 < s;
  inv_nodup : NoDup (map fst (live w));
  inv_freed : forall p s, In (p, s) (freed w) -> exists n, In (p - HDR, n) fl /\ s + HDR <= n;
  inv_own : forall x, own E h0 x -> mem w x <> None /\ forall c n, In (c, n) (chunks a0 fs al fl) -> x < c \/ c + n <= x }.
Definition start (E : env) (h0 : heap) (w : world) : Prop :=
  fresh E (mem w) /\ live w = [] /\ freed w = [] /\ forall x, mem w x = None <-> h0 x = None.
Definition ok (E : env) (h0 : heap) (w : world) : Prop := start E h0 w \/ exists a0 fs al fl, inv E h0 w a0 fs al fl.

Lemma forget_in p l x : In x (forget p l) <-> In x l /\ fst x <> p.
Proof. unfold forget. rewrite filter_In. destruct (Z.eqb_spec (fst x) p); cbn; intuition congruence. Qed.
Lemma forget_nodup p l : NoDup (map fst l) -> NoDup (map fst (forget p l)).
Proof.
  induction l as [|x r IH]; intros N; [exact N|]. cbn in N. apply NoDup_cons_iff in N. destruct N as [N1 N2]. cbn [forget filter].
  destruct (negb (fst x =? p)); [|apply IH; exact N2]. cbn. constructor; [|apply IH; exact N2].
  intros I. apply N1. apply in_map_iff in I. destruct I as (y & <- & Hy). apply in_map. apply forget_in in Hy. tauto.
Qed.

Lemma words_dec_outside E cs x : ~ allocator_variable E x -> (forall c n, In (c, n) cs -> x < c \/ c + HDR <= x) -> outside (words E cs) x.
Proof.
  intros G C a [[->|[->| ->]]|([c n] & Hx & Ha)]; [unfold allocator_variable in G; lia..|].
  cbn [fst] in Ha. specialize (C c n Hx). unfold next_of, prev_of, size_of, HDR in *. lia.
Qed.
Lemma block_outside E h cs c n x : regions E h cs -> In (c, n) cs -> c + HDR <= x < c + n -> outside (words E cs) x.
Proof.
  intros Rg Hc Hx a [Ha|([d m] & Hd & Ha)].
  - pose proof (rg_glob _ _ _ Rg a (c, n) Ha Hc) as A. unfold apart, HDR in *. cbn [fst snd] in A. lia.
  - cbn [fst] in Ha. pose proof (rg_ok _ _ _ Rg) as Ok. rewrite Forall_forall in Ok. destruct (Ok _ Hd) as [_ [_ Sd] _ _]. cbn [fst snd] in Sd.
    destruct (pairwise_in disj cs (c, n) (d, m) disj_sym (rg_disj _ _ _ Rg) Hc Hd) as [Q|Q].
    + injection Q as -> ->. unfold next_of, prev_of, size_of, HDR in *. lia.
    + unfold disj, apart in Q. cbn [fst snd] in Q. unfold next_of, prev_of, size_of, HDR in *. lia.
Qed.
Lemma own_outside E h0 cs x : own E h0 x -> (forall c n, In (c, n) cs -> x < c \/ c + n <= x) -> (forall c n, In (c, n) cs -> HDR <= n) -> outside (words E cs) x.
Proof.
  intros [_ G] C S. apply words_dec_outside; auto. intros c n H. specialize (C c n H). specialize (S c n H). lia.
Qed.
Lemma chunk_hdr E h cs c n : regions E h cs -> In (c, n) cs -> HDR <= n.
Proof. intros Rg H. pose proof (rg_ok _ _ _ Rg) as Ok. rewrite Forall_forall in Ok. destruct (Ok _ H) as [_ [_ S] _ _]. cbn in S. unfold HDR. lia. Qed.

(** writes outside the allocator's words *)
Lemma upd_dom h x v y : h x <> None -> upd h x v y = None <-> h y = None.
Proof. intros H. unfold upd. destruct (Z.eqb_spec y x) as [->|]; [split; congruence|tauto]. Qed.
Lemma ready_upd E h a0 fs al fl x v : ready E h a0 fs al fl -> h x <> None -> outside (words E (chunks a0 fs al fl)) x -> ready E (upd h x v) a0 fs al fl.
Proof.
  intros (Rg & f & P & A & F) Hx O. split.
  - eapply regions_dom; [|exact Rg]. intros y. apply upd_dom. exact Hx.
  - exists f. split; [|split; assumption]. constructor; [|reflexivity|reflexivity]. intros a Ha.
    rewrite <- (rep_words _ _ _ _ P a Ha). apply peek_ext. intros i Hi. apply upd_other. specialize (O a Ha). lia.
Qed.
Lemma live_chunk E h0 w a0 fs al fl p n x : inv E h0 w a0 fs al fl -> In (p, n) (live w) -> p <= x < p + n ->
  mem w x <> None /\ outside (words E (chunks a0 fs al fl)) x.
Proof.
  intros I Hp Hx. destruct (inv_live _ _ _ _ _ _ _ I _ _ Hp) as (m & Hm & Sm & _). destruct (inv_ready _ _ _ _ _ _ _ I) as (Rg & _).
  assert (Hc : In (p - HDR, m) (chunks a0 fs al fl)) by (right; right; apply in_app_iff; auto). split.
  - pose proof (rg_ok _ _ _ Rg) as Ok. rewrite Forall_forall in Ok. destruct (Ok _ Hc) as [_ _ _ A]. cbn [fst snd] in A.
    specialize (A (x - (p - HDR))). replace (p - HDR + (x - (p - HDR))) with x in A by lia. apply A. unfold HDR in *. lia.
  - eapply block_outside; eauto. unfold HDR in *. lia.
Qed.
Lemma inv_upd E h0 w a0 fs al fl x v : inv E h0 w a0 fs al fl -> mem w x <> None -> outside (words E (chunks a0 fs al fl)) x ->
  inv E h0 {| mem := upd (mem w) x v; live := live w; freed := freed w |} a0 fs al fl.
Proof.
  intros [R1 R2 R3 R4 R5] Hx O. constructor; cbn [mem live freed]; auto.
  - apply ready_upd; auto.
  - intros y Hy. destruct (R5 y Hy) as [A B]. split; [|exact B]. rewrite upd_dom by exact Hx. exact A.
Qed.
Lemma keeps_untouched E h0 w a0 fs al fl h' : inv E h0 w a0 fs al fl -> keeps E (chunks a0 fs al fl) (mem w) h' -> untouched E h0 (live w) (mem w) h'.
Proof.
  intros I K. split.
  - intros p n x Hp Hx. destruct (live_chunk _ _ _ _ _ _ _ _ _ _ I Hp Hx) as [A B]. apply (K x A). exact B.
  - intros x Hx. destruct (inv_own _ _ _ _ _ _ _ I x Hx) as [A B]. apply (K x A). eapply own_outside; eauto.
    intros c n H. eapply chunk_hdr; eauto. apply (inv_ready _ _ _ _ _ _ _ I).
Qed.

(** ** malloc from a state in order *)
Lemma fits_room size n : fits size -> n mod 4096 = 0 -> size <= n -> size + 12 <= n.
Proof. intros [H1 H2] Hn Hs. lia. Qed.
Lemma align_fits size : 0 < size <= 2147479540 -> size + 12 <= align_up (iadd HDR size) /\ align_up (iadd HDR size) mod 4096 = 0.
Proof.
  intros H. unfold iadd, HDR. rewrite wrap_id by (unfold is_i32; lia). rewrite align_up_val by lia. lia.
Qed.

Lemma malloc_inv E h0 w a0 fs al fl size : os_ok E -> inv E h0 w a0 fs al fl -> fits size ->
  ((forall x, In x fl -> snd x < size) -> os E (mem w) (align_up (iadd HDR size)) <> None) ->
  exists p h' al' fl', evals (fun F => malloc E F size) (mem w) p h' /\ allocated E h0 w size p h' /\
    inv E h0 {| mem := h'; live := (p, size) :: live w; freed := forget p (freed w) |} a0 fs al' fl' /\
    ((exists x, In x fl /\ size <= snd x) -> forall x, h' x = None <-> mem w x = None).
Proof.
  intros Os I Fs Will. pose proof (inv_ready _ _ _ _ _ _ _ I) as Rd. destruct Fs as [Fs1 Fs2].
  destruct (obtain_spec E (mem w) a0 fs al fl size Os Rd Fs1 Will) as (h' & c & n & fl' & Ev & Rd' & K & Cs).
  pose proof (proj1 (malloc_ready E (mem w) a0 fs al fl size h' _ Rd ltac:(lia)) Ev) as Evm.
  pose proof (keeps_untouched _ _ _ _ _ _ _ _ I K) as Un.
  destruct Rd' as [Rg' Rf'].
  assert (Hc : In (c, n) (chunks a0 fs (al ++ [(c, n)]) fl')) by (right; right; apply in_app_iff; left; apply in_app_iff; right; left; reflexivity).
  pose proof (rg_ok _ _ _ Rg') as Ok'. rewrite Forall_forall in Ok'. destruct (Ok' _ Hc) as [[Pc1 Pc2] [Sc1 Sc2] Tc Ac]. cbn [fst snd] in *.
  assert (Room : size + 12 <= n).
  { destruct Cs as [[(l1 & l2 & _ & _ & Le & _) _]|[(_ & _ & En & _) _]].
    - apply fits_room; auto. split; assumption.
    - subst n. apply align_fits. exact Fs1. }
  assert (Ln : forall q m, In (q, m) al -> c <> q).
  { intros q m Hq Q. subst q. pose proof (pairwise_nodup _ _ _ Rg') as N. unfold chunks in N. cbn [map] in N.
    destruct (nd2 _ _ _ N) as (_ & _ & N2). rewrite !map_app in N2. cbn [map fst] in N2. rewrite <- app_assoc in N2. cbn [app] in N2.
    apply NoDup_remove_2 in N2. apply N2. apply in_app_iff. left. apply (in_map fst) in Hq. exact Hq. }
  assert (OwnC : forall x, own E h0 x -> x < c \/ c + n <= x).
  { intros x Hx. destruct (inv_own _ _ _ _ _ _ _ I x Hx) as [A B].
    destruct Cs as [[(l1 & l2 & El & _ & _ & _) _]|[(_ & _ & En & Fr) _]].
    - apply B. right. right. apply in_app_iff. right. rewrite El. apply in_app_iff. right. left. reflexivity.
    - destruct (Z.lt_ge_cases x c), (Z.lt_ge_cases x (c + n)); auto. exfalso. apply A. apply Fr. lia. }
  exists (c + HDR), h', (al ++ [(c, n)]), fl'. split; [exact Evm|]. split; [|split].
  - constructor.
    + unfold HDR. lia.
    + intros i Hi. rewrite <- Z.add_assoc. apply Ac. unfold HDR. lia.
    + intros q m Hq. destruct (inv_live _ _ _ _ _ _ _ I _ _ Hq) as (k & Hk & Sk & _).
      assert (Hk' : In (q - HDR, k) (chunks a0 fs (al ++ [(c, n)]) fl')) by (right; right; rewrite !in_app_iff; auto).
      pose proof (Ln _ _ Hk) as Nq.
      destruct (pairwise_in disj _ _ _ disj_sym (rg_disj _ _ _ Rg') Hc Hk') as [Q|Q]; [injection Q; intros; congruence|].
      unfold disj, apart in *. cbn [fst snd] in Q. unfold HDR in *. lia.
    + intros x Hx. specialize (OwnC x Hx). unfold HDR. lia.
    + exact Un.
  - constructor; cbn [mem live freed].
    + split; assumption.
    + intros p s [Q|Hp].
      * injection Q as <- <-. exists n. replace (c + HDR - HDR) with c by lia. split; [apply in_app_iff; right; left; reflexivity|]. unfold HDR. lia.
      * destruct (inv_live _ _ _ _ _ _ _ I _ _ Hp) as (k & Hk & Sk). exists k. split; [apply in_app_iff; auto|exact Sk].
    + cbn [map fst]. constructor; [|apply I]. intros Q. apply in_map_iff in Q. destruct Q as ([q s] & Eq & Hq). cbn [fst] in Eq.
      destruct (inv_live _ _ _ _ _ _ _ I _ _ Hq) as (k & Hk & _). apply (Ln _ _ Hk). lia.
    + intros p s Hp. apply forget_in in Hp. destruct Hp as [Hp Np]. cbn [fst] in Np. destruct (inv_freed _ _ _ _ _ _ _ I _ _ Hp) as (k & Hk & Sk).
      exists k. split; [|exact Sk]. destruct Cs as [[(l1 & l2 & El & Ef & _ & _) _]|[(_ & Ef & _ & _) _]]; [|subst fl'; exact Hk].
      subst fl fl'. apply in_app_iff in Hk. apply in_app_iff. destruct Hk as [Hk|[Hk|Hk]]; auto. injection Hk as Hk _. exfalso. apply Np. lia.
    + intros x Hx. destruct (inv_own _ _ _ _ _ _ _ I x Hx) as [A B]. split; [apply (K x A)|].
      intros d m Hd. destruct Hd as [Hd|[Hd|Hd]]; [apply B; left; exact Hd|apply B; right; left; exact Hd|].
      rewrite !in_app_iff in Hd. destruct Hd as [[Hd|[Hd|[]]]|Hd].
      * apply B. right. right. apply in_app_iff. auto.
      * injection Hd as <- <-. apply OwnC. exact Hx.
      * apply B. right. right. apply in_app_iff. right. destruct Cs as [[(l1 & l2 & El & Ef & _ & _) _]|[(_ & Ef & _ & _) _]]; [|subst fl'; exact Hd].
        subst fl fl'. rewrite in_app_iff in *. cbn. tauto.
  - intros (x & Hx & Lx). destruct Cs as [[_ D]|[(Q & _) _]]; [exact D|]. specialize (Q x Hx). lia.
Qed.

Lemma untouched_trans E h0 l h1 h2 h3 : untouched E h0 l h1 h2 -> untouched E h0 l h2 h3 -> untouched E h0 l h1 h3.
Proof.
  intros [A1 B1] [A2 B2]. split; [intros p n x Hp Hx; rewrite (A2 p n x Hp Hx); apply (A1 p n x Hp Hx)|intros x Hx; rewrite (B2 x Hx); auto].
Qed.

Lemma malloc_ok E h0 w size : os_ok E -> ok E h0 w -> fits size -> grants E (mem w) size ->
  exists p h', evals (fun F => malloc E F size) (mem w) p h' /\ allocated E h0 w size p h' /\
    ok E h0 {| mem := h'; live := (p, size) :: live w; freed := forget p (freed w) |}.
Proof.
  intros Os [(Fr & L & Fd & Dm)|(a0 & fs & al & fl & I)] Fs Gr.
  - destruct (malloc_fresh E (mem w) size Os Fr (proj1 Fs) Gr) as (h1 & a0 & fs & Rd & K & F0 & F1 & Wl & Go).
    assert (I1 : inv E h0 {| mem := h1; live := []; freed := [] |} a0 fs [] []).
    { constructor; cbn [mem live freed]; auto; try (intros p s []); [constructor|].
      intros x [Hx Gx]. assert (Mx : mem w x <> None) by (rewrite Dm; exact Hx). split; [apply (K x Mx)|].
      intros c n [Q|[Q|[]]]; injection Q as <- <-.
      - destruct (Z.lt_ge_cases x a0), (Z.lt_ge_cases x (a0 + 4096)); auto. exfalso. apply Mx. apply F0. lia.
      - destruct (Z.lt_ge_cases x fs), (Z.lt_ge_cases x (fs + 4096)); auto. exfalso. apply Mx. apply F1. lia. }
    destruct (malloc_inv E h0 _ a0 fs [] [] size Os I1 Fs (fun _ => Wl)) as (p & h' & al' & fl' & Ev & Al & Iv & _). cbn [mem live freed] in *.
    assert (Ev' : evals (fun F => obtain E F size) h1 p h').
    { destruct (obtain_spec E h1 a0 fs [] [] size Os Rd (proj1 Fs) (fun _ => Wl)) as (h2 & c & n & fl2 & Ev2 & _).
      pose proof (proj1 (malloc_ready E h1 a0 fs [] [] size h2 _ Rd ltac:(unfold fits in Fs; lia)) Ev2) as Ev3.
      destruct (evals_det _ _ _ _ _ _ Ev Ev3) as [-> ->]. exact Ev2. }
    exists p, h'. split; [apply Go; exact Ev'|]. rewrite L, Fd. split; [|right; exists a0, fs, al', fl'; exact Iv].
    destruct Al as [A1 A2 A3 A4 A5]. constructor; auto; rewrite L; cbn [live mem] in *; auto. destruct A5 as [_ A5]. split; [intros ? ? ? []|].
    intros x Hx. rewrite (A5 x Hx). destruct Hx as [Hx Gx]. apply (K x); [rewrite Dm; exact Hx|]. apply words_dec_outside; auto. intros ? ? [].
  - destruct (malloc_inv E h0 w a0 fs al fl size Os I Fs) as (p & h' & al' & fl' & Ev & Al & Iv & _).
    + intros _. apply (Gr (mem w) _ []); [right; reflexivity|cbn; lia|]. intros x. split; [intros Q; split; [exact Q|intros ? []]|tauto].
    + exists p, h'. split; [exact Ev|]. split; [exact Al|]. right. exists a0, fs, al', fl'. exact Iv.
Qed.

(** the same when the call is known to have returned *)
Lemma malloc_inv_ran E h0 w a0 fs al fl size : os_ok E -> inv E h0 w a0 fs al fl -> fits size ->
  returns (fun F => malloc E F size) (mem w) -> exists p h' al' fl', evals (fun F => malloc E F size) (mem w) p h' /\
  allocated E h0 w size p h' /\ inv E h0 {| mem := h'; live := (p, size) :: live w; freed := forget p (freed w) |} a0 fs al' fl'.
Proof.
  intros Os I Fs Ev. pose proof (inv_ready _ _ _ _ _ _ _ I) as Rd.
  assert (Will : (forall x, In x fl -> snd x < size) -> os E (mem w) (align_up (iadd HDR size)) <> None).
  { intros Sm Q. apply (obtain_refused E (mem w) a0 fs al fl size Rd Sm Q). destruct Ev as [n0 Ev]. exists n0. intros F HF.
    destruct (Ev F HF) as [r Er]. exists r. rewrite <- Er. symmetry. apply (malloc_ready_eq E (mem w) a0 fs al fl); [exact Rd|unfold fits in Fs; lia]. }
  destruct (malloc_inv E h0 w a0 fs al fl size Os I Fs Will) as (p' & h'' & al' & fl' & Ev' & Al & Iv & _).
  exists p', h'', al', fl'. auto.
Qed.

Lemma malloc_ran E h0 w size : os_ok E -> ok E h0 w -> fits size -> returns (fun F => malloc E F size) (mem w) ->
  exists p h' a0 fs al fl, evals (fun F => malloc E F size) (mem w) p h' /\ allocated E h0 w size p h' /\
    inv E h0 {| mem := h'; live := (p, size) :: live w; freed := forget p (freed w) |} a0 fs al fl.
Proof.
  intros Os [(Fr & L & Fd & Dm)|(a0 & fs & al & fl & I)] Fs Ev.
  2:{ destruct (malloc_inv_ran E h0 w a0 fs al fl size Os I Fs Ev) as (p & h' & al' & fl' & A). exists p, h', a0, fs, al', fl'. exact A. }
  pose proof Ev as [n0 Ev0]. destruct (Ev0 n0 ltac:(lia)) as [[p0 h0'] Ev1].
  destruct (malloc_fresh_ran E (mem w) size n0 p0 h0' Os Fr ltac:(unfold fits in Fs; lia) Ev1) as (h1 & a0 & fs & Rd & K & F0 & F1 & Eq).
  assert (I1 : inv E h0 {| mem := h1; live := []; freed := [] |} a0 fs [] []).
  { constructor; cbn [mem live freed]; auto; try (intros q s []); [constructor|].
    intros x [Hx Gx]. assert (Mx : mem w x <> None) by (rewrite Dm; exact Hx). split; [apply (K x Mx)|].
    intros c n [Q|[Q|[]]]; injection Q as <- <-.
    - destruct (Z.lt_ge_cases x a0), (Z.lt_ge_cases x (a0 + 4096)); auto. exfalso. apply Mx. apply F0. lia.
    - destruct (Z.lt_ge_cases x fs), (Z.lt_ge_cases x (fs + 4096)); auto. exfalso. apply Mx. apply F1. lia. }
  assert (Rn : returns (fun F => malloc E F size) h1).
  { exists n0. intros F HF. destruct (Ev0 F HF) as [r Er]. exists r. rewrite (malloc_ready_eq E h1 a0 fs [] []); [|exact Rd|unfold fits in Fs; lia]. rewrite <- Eq. exact Er. }
  destruct (malloc_inv_ran E h0 _ a0 fs [] [] size Os I1 Fs Rn) as (p & h' & al' & fl' & Ev2 & Al & Iv). cbn [mem live freed] in *.
  exists p, h', a0, fs, al', fl'. rewrite L, Fd. split; [|split; [|exact Iv]].
  - destruct Ev2 as [n2 Ev2]. exists n2. intros F HF. rewrite Eq, <- (malloc_ready_eq E h1 a0 fs [] []); [|exact Rd|unfold fits in Fs; lia]. apply Ev2. exact HF.
  - destruct Al as [A1 A2 A3 A4 A5]. constructor; auto; rewrite ?L; cbn [live mem] in *; auto. destruct A5 as [_ A5]. split; [intros ? ? ? []|].
    intros x Hx. rewrite (A5 x Hx). destruct Hx as [Hx Gx]. apply (K x); [rewrite Dm; exact Hx|]. apply words_dec_outside; auto. intros ? ? [].
Qed.

(** ** free *)
Lemma in_live_chunk E h0 w a0 fs al fl p n : inv E h0 w a0 fs al fl -> In (p, n) (live w) -> exists l1 m l2, al = l1 ++ (p - HDR, m) :: l2 /\ n + HDR <= m.
Proof.
  intros I Hp. destruct (inv_live _ _ _ _ _ _ _ I _ _ Hp) as (m & Hm & Sm & _). apply in_split in Hm. destruct Hm as (l1 & l2 & El). eauto 6.
Qed.
Lemma perm_give a0 fs l1 x l2 fl : Permutation (chunks a0 fs (l1 ++ x :: l2) fl) (chunks a0 fs (l1 ++ l2) (x :: fl)).
Proof.
  unfold chunks. do 2 apply perm_skip. rewrite <- !app_assoc. apply Permutation_app_head. cbn [app]. apply Permutation_middle.
Qed.
Lemma free_inv E h0 w a0 fs al fl p n : inv E h0 w a0 fs al fl -> In (p, n) (live w) ->
  exists h' al' fl', free E p (mem w) = Some (false, h') /\ untouched E h0 (live w) (mem w) h' /\ (forall x, h' x = None <-> mem w x = None) /\
    inv E h0 {| mem := h'; live := forget p (live w); freed := (p, n) :: freed w |} a0 fs al' fl'.
Proof.
  intros I Hp. destruct (in_live_chunk _ _ _ _ _ _ _ _ _ I Hp) as (l1 & m & l2 & El & Sm). subst al.
  destruct (inv_ready _ _ _ _ _ _ _ I) as (Rg & f & P & A & F).
  destruct (free_spec E (mem w) _ Rg (mem w) f a0 fs l1 (p - HDR) m l2 fl P (Permutation_refl _) A F) as (h' & f' & Ev & P' & A' & F').
  replace (p - HDR + HDR) with p in Ev by lia.
  pose proof (perm_give a0 fs l1 (p - HDR, m) l2 fl) as Pm.
  exists h', (l1 ++ l2), ((p - HDR, m) :: fl). split; [exact Ev|]. split; [|split].
  - eapply keeps_untouched; eauto. eapply keeps_rep; eauto.
  - intros x. apply P'.
  - constructor; cbn [mem live freed].
    + split; [eapply regions_perm; [exact Pm|]; eapply regions_rebase; eauto|]. exists f'. split; [|split; assumption].
      eapply rep_weaken; [|eapply rep_self; eauto]. intros x. apply words_perm. exact Pm.
    + intros q s Hq. apply forget_in in Hq. destruct Hq as [Hq Nq]. cbn [fst] in Nq.
      destruct (inv_live _ _ _ _ _ _ _ I _ _ Hq) as (k & Hk & Sk). exists k. split; [|exact Sk].
      rewrite in_app_iff in *. destruct Hk as [Hk|[Hk|Hk]]; auto. injection Hk as Hk _. exfalso. apply Nq. lia.
    + apply forget_nodup. apply I.
    + intros q s [Q|Hq].
      * injection Q as <- <-. exists m. split; [left; reflexivity|exact Sm].
      * destruct (inv_freed _ _ _ _ _ _ _ I _ _ Hq) as (k & Hk & Sk). exists k. split; [right; exact Hk|exact Sk].
    + intros x Hx. destruct (inv_own _ _ _ _ _ _ _ I x Hx) as [B1 B2]. split.
      * intros Q. apply B1. apply (rep_dom _ _ _ _ P' x). exact Q.
      * intros c k Hc. apply B2. eapply Permutation_in; [apply Permutation_sym; exact Pm|exact Hc].
Qed.

(** ** calloc *)
Lemma sw_upd h a : accessible h a 4 -> sw a 0 h = Some (tt, poke h a 0).
Proof. intros A. destruct (peek_accessible h a) as [v Ev]; [exact A|]. unfold sw. rewrite Ev. reflexivity. Qed.
(** memory with a zeroed range *)
Definition zeroed (h : heap) (a n : Z) : heap := fun x => if (a <=? x) && (x <? a + n) then Some 0 else h x.
Lemma zero_words h p total : 0 <= total < 2147483648 -> accessible h p total -> forall i, 0 <= i <= total / 4 -> forall h1,
  (forall x, h1 x = zeroed h p (4 * i) x) ->
  exists h', levals (fun (_ : nat) i => if i <? ishr total 2 then bind (sw (p + 4 * i) 0) (fun _ => ret (inl (iadd i 1))) else ret (inr tt)) i h1 tt h' /\
    (forall x, h' x = zeroed h p (4 * (total / 4)) x).
Proof.
  intros Ht Acc. assert (Es : ishr total 2 = total / 4) by (unfold ishr; reflexivity). rewrite Es.
  intros i Hi. remember (Z.to_nat (total / 4 - i)) as k eqn:Ek. revert i Hi Ek. induction k as [|k IH]; intros i Hi Ek h1 H1.
  - assert (i = total / 4) by lia. subst i. exists h1. split; [|auto]. apply levals_exit. apply evals_const.
    destruct (Z.ltb_spec (total / 4) (total / 4)); [lia|reflexivity].
  - destruct (IH (i + 1) ltac:(lia) ltac:(lia) (poke h1 (p + 4 * i) 0)) as (h' & Lv & R).
    + intros x. unfold poke, upd. change (0 mod 256) with 0. change (0 / 256 mod 256) with 0. change (0 / 65536 mod 256) with 0. change (0 / 16777216 mod 256) with 0.
      rewrite H1. unfold zeroed.
      destruct (Z.leb_spec p x), (Z.ltb_spec x (p + 4 * i)), (Z.ltb_spec x (p + 4 * (i + 1))); cbn [andb];
        destruct (Z.eqb_spec x (p + 4 * i + 3)), (Z.eqb_spec x (p + 4 * i + 2)), (Z.eqb_spec x (p + 4 * i + 1)), (Z.eqb_spec x (p + 4 * i)); try lia; try reflexivity.
    + exists h'. split; [|exact R]. eapply levals_step; [|exact Lv]. apply evals_const.
      destruct (Z.ltb_spec i (total / 4)); [|lia].
      erewrite bind_ok.
      2:{ apply sw_upd. intros j Hj. rewrite H1. unfold zeroed. destruct ((p <=? p + 4 * i + j) && (p + 4 * i + j <? p + 4 * i)); [discriminate|].
          rewrite <- Z.add_assoc. apply Acc. lia. }
      unfold ret. f_equal. f_equal. f_equal. unfold iadd. apply wrap_id. unfold is_i32. lia.
Qed.
Lemma zero_bytes h p total : 0 <= total < 2147483648 -> accessible h p total -> forall i, 0 <= i <= total -> forall h1,
  (forall x, h1 x = zeroed h p i x) ->
  exists h', levals (fun (_ : nat) i => if i <? total then bind (store (p + i) 0) (fun _ => ret (inl (iadd i 1))) else ret (inr tt)) i h1 tt h' /\
    (forall x, h' x = zeroed h p total x).
Proof.
  intros Ht Acc i Hi. remember (Z.to_nat (total - i)) as k eqn:Ek. revert i Hi Ek. induction k as [|k IH]; intros i Hi Ek h1 H1.
  - assert (i = total) by lia. subst i. exists h1. split; [|auto]. apply levals_exit. apply evals_const.
    destruct (Z.ltb_spec total total); [lia|reflexivity].
  - destruct (IH (i + 1) ltac:(lia) ltac:(lia) (upd h1 (p + i) 0)) as (h' & Lv & R).
    + intros x. unfold upd. change (0 mod 256) with 0. rewrite H1. unfold zeroed.
      destruct (Z.leb_spec p x), (Z.ltb_spec x (p + i)), (Z.ltb_spec x (p + (i + 1))); cbn [andb]; destruct (Z.eqb_spec x (p + i)); try lia; try reflexivity.
    + exists h'. split; [|exact R]. eapply levals_step; [|exact Lv]. apply evals_const.
      destruct (Z.ltb_spec i total); [|lia].
      erewrite bind_ok.
      2:{ apply store_ok. rewrite H1. unfold zeroed. destruct ((p <=? p + i) && (p + i <? p + i)); [discriminate|]. apply Acc. lia. }
      unfold ret. f_equal. f_equal. f_equal. unfold iadd. apply wrap_id. unfold is_i32. lia.
Qed.

Lemma calloc_after E h n size p h1 : 0 <= n -> 0 <= size -> 0 < n * size < 2147483648 -> p <> 0 -> accessible h1 p (n * size) ->
  evals (fun F => malloc E F (n * size)) h p h1 ->
  exists h', evals (fun F => calloc E F n size) h p h' /\ forall x, h' x = zeroed h1 p (n * size) x.
Proof.
  intros Hn Hs Ht Np Acc Ev. set (total := n * size) in *.
  assert (Et : imul n size = total) by (unfold imul; apply wrap_id; unfold is_i32; lia).
  destruct (zero_words h1 p total ltac:(lia) Acc 0 ltac:(lia) h1) as (h2 & L2 & E2).
  { intros x. unfold zeroed. destruct (Z.leb_spec p x), (Z.ltb_spec x (p + 4 * 0)); cbn; try reflexivity; lia. }
  destruct (zero_bytes h1 p total ltac:(lia) Acc (4 * (total / 4)) ltac:(lia) h2 E2) as (h3 & L3 & E3).
  exists h3. split; [|exact E3].
  assert (Eo : ishl (ishr total 2) 2 = 4 * (total / 4)).
  { unfold ishl, ishr. change (2 ^ 2) with 4. rewrite wrap_id by (unfold is_i32; lia). lia. }
  unfold calloc. rewrite Et. cbv zeta.
  eapply evals_bind; [exact Ev|]. destruct (Z.eqb_spec p 0); [contradiction|].
  eapply evals_bind; [apply levals_evals in L2; exact L2|].
  eapply evals_bind; [apply levals_evals in L3; rewrite Eo; exact L3|]. apply evals_ret.
Qed.
(** what calloc does when it returns *)
Lemma calloc_malloc E h n size : 0 <= n -> 0 <= size -> 0 < n * size < 2147483648 ->
  returns (fun F => calloc E F n size) h -> returns (fun F => malloc E F (n * size)) h.
Proof.
  intros Hn Hs Ht [n0 Ev]. exists n0. intros F HF. destruct (Ev F HF) as [r Er]. unfold calloc in Er.
  assert (Et : imul n size = n * size) by (unfold imul; apply wrap_id; unfold is_i32; lia). rewrite Et in Er. cbv zeta in Er.
  unfold bind at 1 in Er. destruct (malloc E F (n * size) h) as [[p1 h1]|] eqn:Q; [|discriminate]. eauto.
Qed.
Lemma zeroed_in h a n x : a <= x < a + n -> zeroed h a n x = Some 0.
Proof. intros H. unfold zeroed. destruct (Z.leb_spec a x), (Z.ltb_spec x (a + n)); try lia; reflexivity. Qed.
Lemma zeroed_out h a n x : x < a \/ a + n <= x -> zeroed h a n x = h x.
Proof. intros H. unfold zeroed. destruct (Z.leb_spec a x), (Z.ltb_spec x (a + n)); try lia; reflexivity. Qed.

Lemma inv_zeroed E h0 w a0 fs al fl p n h' : inv E h0 w a0 fs al fl -> In (p, n) (live w) -> (forall x, h' x = zeroed (mem w) p n x) ->
  inv E h0 {| mem := h'; live := live w; freed := freed w |} a0 fs al fl.
Proof.
  intros I Hp Hz.
  assert (Blk : forall x, p <= x < p + n -> mem w x <> None /\ outside (words E (chunks a0 fs al fl)) x) by (intros x Hx; eapply live_chunk; eauto).
  assert (Dm : forall x, h' x = None <-> mem w x = None).
  { intros x. rewrite Hz. destruct (Z.lt_ge_cases x p); [rewrite zeroed_out by lia; tauto|]. destruct (Z.lt_ge_cases x (p + n)); [|rewrite zeroed_out by lia; tauto].
    rewrite zeroed_in by lia. destruct (Blk x ltac:(lia)). split; [discriminate|congruence]. }
  destruct I as [R1 R2 R3 R4 R5]. constructor; cbn [mem live freed]; auto.
  - destruct R1 as (Rg & f & P & A & F). split; [eapply regions_dom; [|exact Rg]; exact Dm|].
    exists f. split; [|split; assumption]. constructor; [|reflexivity|reflexivity]. intros a Ha.
    rewrite <- (rep_words _ _ _ _ P a Ha). apply peek_ext. intros i Hi. rewrite Hz. apply zeroed_out.
    destruct (Z.lt_ge_cases (a + i) p); [lia|]. destruct (Z.lt_ge_cases (a + i) (p + n)); [|lia].
    destruct (Blk (a + i) ltac:(lia)) as [_ O]. specialize (O a Ha). lia.
  - intros x Hx. destruct (R5 x Hx) as [A B]. split; [|exact B]. rewrite Dm. exact A.
Qed.

Lemma calloc_from E h0 w n size p h1 a0 fs al fl : 0 <= n -> 0 <= size -> fits (n * size) ->
  evals (fun F => malloc E F (n * size)) (mem w) p h1 -> allocated E h0 w (n * size) p h1 ->
  inv E h0 {| mem := h1; live := (p, n * size) :: live w; freed := forget p (freed w) |} a0 fs al fl ->
  exists h', evals (fun F => calloc E F n size) (mem w) p h' /\ allocated E h0 w (n * size) p h' /\ cleared h' p (n * size) /\
    inv E h0 {| mem := h'; live := (p, n * size) :: live w; freed := forget p (freed w) |} a0 fs al fl.
Proof.
  intros Hn Hs Fs Ev [A1 A2 A3 A4 A5] I. destruct Fs as [Fs1 Fs2].
  destruct (calloc_after E (mem w) n size p h1 Hn Hs ltac:(lia) ltac:(lia) A2 Ev) as (h' & Ev' & Hz).
  exists h'. split; [exact Ev'|]. split; [|split].
  - constructor; auto.
    + intros i Hi. rewrite Hz, zeroed_in by lia. discriminate.
    + destruct A5 as [B1 B2]. split.
      * intros q m x Hq Hx. rewrite <- (B1 q m x Hq Hx), Hz. apply zeroed_out. specialize (A3 q m Hq). unfold apart in A3. lia.
      * intros x Hx. rewrite <- (B2 x Hx), Hz. apply zeroed_out. apply A4. exact Hx.
  - intros x Hx. rewrite Hz. apply zeroed_in. exact Hx.
  - apply (inv_zeroed E h0 {| mem := h1; live := (p, n * size) :: live w; freed := forget p (freed w) |} a0 fs al fl p (n * size) h' I); cbn [live mem]; [left; reflexivity|exact Hz].
Qed.

(** ** every history keeps the allocator in order *)
Lemma history_ok E h0 w : os_ok E -> fresh E h0 -> history E h0 w -> ok E h0 w.
Proof.
  intros Os Fr H. induction H as [|w w' H IH St].
  - left. split; [exact Fr|]. cbn. intuition.
  - destruct St as [w size p h' Fs Ev|w n size p h' Hn Hs Fs Ev|w p n h' Hp Ev|w h' Ev|w p n x v Hp Hx|w x v Hx].
    + destruct (malloc_ran E h0 w size Os IH Fs (evals_returns _ _ _ _ Ev)) as (p1 & h1 & a0 & fs & al & fl & Ev1 & _ & Iv).
      destruct (evals_det _ _ _ _ _ _ Ev Ev1) as [-> ->]. right. eauto.
    + destruct (malloc_ran E h0 w (n * size) Os IH Fs) as (p1 & h1 & a0 & fs & al & fl & Ev1 & Al & Iv).
      { apply calloc_malloc; auto; [unfold fits in Fs; lia|]. eapply evals_returns; eauto. }
      destruct (calloc_from E h0 w n size p1 h1 a0 fs al fl Hn Hs Fs Ev1 Al Iv) as (h2 & Ev2 & _ & _ & Iv2).
      destruct (evals_det _ _ _ _ _ _ Ev Ev2) as [-> ->]. right. eauto.
    + destruct IH as [(_ & L & _)|(a0 & fs & al & fl & I)]; [rewrite L in Hp; destruct Hp|].
      destruct (free_inv E h0 w a0 fs al fl p n I Hp) as (h1 & al' & fl' & Ev1 & _ & _ & Iv). rewrite Ev in Ev1. injection Ev1 as <-. right. eauto.
    + unfold free in Ev. cbn in Ev. injection Ev as <-. destruct w; exact IH.
    + destruct IH as [(_ & L & _)|(a0 & fs & al & fl & I)]; [rewrite L in Hp; destruct Hp|].
      destruct (live_chunk E h0 w a0 fs al fl p n x I Hp Hx). right. exists a0, fs, al, fl. apply inv_upd; auto.
    + destruct IH as [(Fh & L & Fd & Dm)|(a0 & fs & al & fl & I)].
      * left. destruct Hx as [Hx Gx]. assert (Mx : mem w x <> None) by (rewrite Dm; exact Hx). split; [|split; [exact L|split; [exact Fd|]]].
        -- destruct Fh as (G1 & G2 & G3 & G4). cbn [mem]. unfold allocator_variable in Gx.
           split; [exact G1|]. repeat split; rewrite (peek_ext (mem w)); auto; intros i Hi; apply upd_other; lia.
        -- intros y. cbn [mem]. rewrite upd_dom by exact Mx. apply Dm.
      * destruct (inv_own _ _ _ _ _ _ _ I x Hx) as [A B]. right. exists a0, fs, al, fl. apply inv_upd; auto. eapply own_outside; eauto.
        intros c n Hc. eapply chunk_hdr; eauto. apply (inv_ready _ _ _ _ _ _ _ I).
Qed.

(** ** more fuel does not change a result (to run the examples) *)
Lemma loop_more {S R} (b : S -> M (S + R)) n : forall s h r, loop b n s h = Some r -> forall m, (n <= m)%nat -> loop b m s h = Some r.
Proof.
  induction n as [|n IH]; intros s h r H m Hm; [discriminate|]. destruct m as [|m]; [lia|]. cbn [loop] in *. unfold bind in *.
  destruct (b s h) as [[[s'|q] h']|]; [|exact H|discriminate]. apply (IH _ _ _ H). lia.
Qed.
Lemma bind_more {A B} (m m' : M A) (k k' : A -> M B) h r : bind m k h = Some r -> (forall q, m h = Some q -> m' h = Some q) ->
  (forall a h1 q, k a h1 = Some q -> k' a h1 = Some q) -> bind m' k' h = Some r.
Proof. unfold bind. intros H Hm Hk. destruct (m h) as [[a h1]|]; [|discriminate]. rewrite (Hm _ eq_refl). apply Hk. exact H. Qed.
Lemma malloc_more E n size h r : malloc E n size h = Some r -> forall m, (n <= m)%nat -> malloc E m size h = Some r.
Proof.
  intros H m Hm. unfold malloc in *. destruct (size <=? 0); [exact H|].
  eapply bind_more; [exact H|auto|]. clear h r H. intros u1 h r H. eapply bind_more; [exact H|auto|]. clear h r H. intros u2 h r H.
  eapply bind_more; [exact H| |intros; assumption]. clear r H. intros r H. unfold take_free in *.
  eapply bind_more; [exact H|auto|]. clear r H. clear h. intros fh h r H. eapply bind_more; [exact H|auto|]. clear h r H. intros nx h r H.
  cbv beta in H |- *; destruct (nx =? 0); [exact H|]. eapply bind_more; [exact H| |intros; assumption]. intros q Q. eapply loop_more; eauto.
Qed.
Lemma malloc_run E n size h r h' : malloc E n size h = Some (r, h') -> evals (fun F => malloc E F size) h r h'.
Proof. intros H. exists n. intros m Hm. eapply malloc_more; eauto. Qed.
Lemma calloc_run E n a b h r h' : calloc E n a b h = Some (r, h') -> evals (fun F => calloc E F a b) h r h'.
Proof.
  intros H. exists n. intros m Hm. unfold calloc in *. cbv zeta in *.
  eapply bind_more; [exact H|intros; eapply malloc_more; eauto|]. clear h r h' H. intros p h r H. cbv beta in H |- *. destruct (p =? 0); [exact H|].
  eapply bind_more; [exact H|intros; eapply loop_more; eauto|]. clear h r H. intros u h r H.
  eapply bind_more; [exact H|intros; eapply loop_more; eauto|]. auto.
Qed.

(** a concrete operating system: the first of nine fixed addresses with enough unused room *)
Fixpoint unused (h : heap) (a : Z) (n : nat) : bool :=
  match n with O => true | S n => match h a with None => unused h (a + 1) n | Some _ => false end end.
Definition demo_os (h : heap) (len : Z) : option Z :=
  find (fun a => (len <=? 65536) && unused h a (Z.to_nat len)) (map (fun i => 65536 * i) [1; 2; 3; 4; 5; 6; 7; 8; 9]).
Definition demo_E : env := {| g_head := 256; g_tail := 260; g_free := 264; os := demo_os |}.
Definition demo_h0 : heap := fun x => if (256 <=? x) && (x <? 512) then Some 0 else None.
Lemma unused_ok h n : forall a x, unused h a n = true -> a <= x < a + Z.of_nat n -> h x = None.
Proof.
  induction n as [|n IH]; intros a x H Hx; [lia|]. cbn [unused] in H. destruct (h a) eqn:Q; [discriminate|].
  destruct (Z.eq_dec x a) as [->|]; [exact Q|]. apply (IH (a + 1)); [exact H|lia].
Qed.
Lemma demo_os_ok : os_ok demo_E.
Proof.
  intros h len a H Hl. change (demo_os h len = Some a) in H. unfold demo_os in H. pose proof (find_some _ _ H) as [I Q].
  apply andb_true_iff in Q. destruct Q as [Q1 Q2]. apply Z.leb_le in Q1.
  assert (65536 <= a <= 65536 * 9 /\ a mod 4096 = 0) by (cbn in I; repeat (destruct I as [<-|I]; [split; [lia|reflexivity]|]); destruct I).
  split; [lia|]. split; [lia|]. split; [lia|]. intros x Hx. apply (unused_ok h (Z.to_nat len) a); [exact Q2|lia].
Qed.
Lemma demo_fresh : fresh demo_E demo_h0.
Proof. split; [unfold globals_apart, apart; cbn; lia|]. repeat split; vm_compute; reflexivity. Qed.

Definition mem_of {A} (r : option (A * heap)) : heap := match r with Some (_, h) => h | None => fun _ => None end.
Lemma mem_of_eq {A} (r : option (A * heap)) a : option_map fst r = Some a -> r = Some (a, mem_of r).
Proof. destruct r as [[b h]|]; cbn; congruence. Qed.

(** malloc(100), malloc(4084), write, free of the second *)
Definition demo1 := mem_of (malloc demo_E 20 100 demo_h0).
Definition demo2 := mem_of (malloc demo_E 20 4084 demo1).
Definition demo3 := upd demo2 (196608 + 12 + 99) 65.
Definition demo4 := mem_of (free demo_E (262144 + 12) demo3).
Definition demo_w : world := {| mem := demo4; live := [(196608 + 12, 100)]; freed := [(262144 + 12, 4084)] |}.
Lemma demo_history : history demo_E demo_h0 demo_w.
Proof.
  assert (H1 : malloc demo_E 20 100 demo_h0 = Some (196608 + 12, demo1)) by (apply mem_of_eq; vm_compute; reflexivity).
  assert (H2 : malloc demo_E 20 4084 demo1 = Some (262144 + 12, demo2)) by (apply mem_of_eq; vm_compute; reflexivity).
  assert (H4 : free demo_E (262144 + 12) demo3 = Some (false, demo4)) by (apply mem_of_eq; vm_compute; reflexivity).
  pose proof (hist_start demo_E demo_h0) as W0.
  eapply hist_step in W0; [|eapply (step_malloc demo_E demo_h0 _ 100); [unfold fits; lia|apply (malloc_run _ 20); exact H1]].
  eapply hist_step in W0; [|eapply (step_malloc demo_E demo_h0 _ 4084); [unfold fits; lia|apply (malloc_run _ 20); exact H2]].
  eapply hist_step in W0; [|eapply (step_write demo_E demo_h0 _ (196608 + 12) 100 (196608 + 12 + 99) 65); [right; left; reflexivity|lia]].
  eapply hist_step in W0; [|eapply (step_free demo_E demo_h0 _ (262144 + 12) 4084); [left; reflexivity|exact H4]].
  exact W0.
Qed.

(** *** C27: malloc returns disjoint blocks *)
(** In every state a program can reach, malloc of a positive size not within 12 bytes below a page
    multiple returns when the system grants the memory, and its block overlaps nothing in use. *)
Theorem C27_malloc_partial : forall E h0 w size, os_ok E -> fresh E h0 -> history E h0 w -> fits size -> grants E (mem w) size ->
  exists p h', evals (fun F => malloc E F size) (mem w) p h' /\ allocated E h0 w size p h'.
Proof.
  intros E h0 w size Os Fr H Fs Gr. destruct (malloc_ok E h0 w size Os (history_ok E h0 w Os Fr H) Fs Gr) as (p & h' & Ev & Al & _). eauto.
Qed.
Print Assumptions C27_malloc_partial.
(** the same of every call that returns, whatever the system granted *)
Theorem C27_returned_partial : forall E h0 w size p h', os_ok E -> fresh E h0 -> history E h0 w -> fits size ->
  evals (fun F => malloc E F size) (mem w) p h' -> allocated E h0 w size p h'.
Proof.
  intros E h0 w size p h' Os Fr H Fs Ev.
  destruct (malloc_ran E h0 w size Os (history_ok E h0 w Os Fr H) Fs (evals_returns _ _ _ _ Ev)) as (p1 & h1 & a0 & fs & al & fl & Ev1 & Al & _).
  destruct (evals_det _ _ _ _ _ _ Ev Ev1) as [-> ->]. exact Al.
Qed.
Print Assumptions C27_returned_partial.
(** all blocks alive at the same time are disjoint, and apart from the program's memory *)
Theorem C27_live_disjoint_partial : forall E h0 w, os_ok E -> fresh E h0 -> history E h0 w ->
  (forall p n q m, In (p, n) (live w) -> In (q, m) (live w) -> (p, n) = (q, m) \/ apart p n q m) /\
  (forall p n, In (p, n) (live w) -> 0 < p /\ p mod 4 = 0 /\ accessible (mem w) p n /\ forall x, own E h0 x -> x < p \/ p + n <= x).
Proof.
  intros E h0 w Os Fr H. destruct (history_ok E h0 w Os Fr H) as [(_ & L & _)|(a0 & fs & al & fl & I)]; [rewrite L; split; [intros p n q m []|intros p n []]|].
  destruct (inv_ready _ _ _ _ _ _ _ I) as (Rg & _). split.
  - intros p n q m Hp Hq. destruct (Z.eq_dec p q) as [->|N].
    + left. f_equal. pose proof (inv_nodup _ _ _ _ _ _ _ I) as Nd. clear - Nd Hp Hq. induction (live w) as [|[a b] r IH]; [destruct Hp|].
      cbn [map fst] in Nd. apply NoDup_cons_iff in Nd. destruct Nd as [N1 N2]. destruct Hp as [Hp|Hp], Hq as [Hq|Hq].
      * congruence.
      * exfalso. injection Hp as -> ->. apply N1. apply (in_map fst) in Hq. exact Hq.
      * exfalso. injection Hq as -> ->. apply N1. apply (in_map fst) in Hp. exact Hp.
      * auto.
    + right. destruct (inv_live _ _ _ _ _ _ _ I _ _ Hp) as (k & Hk & Sk & _). destruct (inv_live _ _ _ _ _ _ _ I _ _ Hq) as (k' & Hk' & Sk' & _).
      assert (A1 : In (p - HDR, k) (chunks a0 fs al fl)) by (right; right; rewrite in_app_iff; auto).
      assert (A2 : In (q - HDR, k') (chunks a0 fs al fl)) by (right; right; rewrite in_app_iff; auto).
      destruct (pairwise_in disj _ _ _ disj_sym (rg_disj _ _ _ Rg) A1 A2) as [Q|Q]; [injection Q; intros; exfalso; lia|].
      unfold disj, apart, HDR in *. cbn [fst snd] in Q. lia.
  - intros p n Hp. destruct (inv_live _ _ _ _ _ _ _ I _ _ Hp) as (k & Hk & Sk & _).
    assert (A1 : In (p - HDR, k) (chunks a0 fs al fl)) by (right; right; rewrite in_app_iff; auto).
    pose proof (rg_ok _ _ _ Rg) as Ok. rewrite Forall_forall in Ok. destruct (Ok _ A1) as [[P1 P2] _ _ _]. cbn [fst snd] in *.
    split; [unfold HDR in *; lia|]. split; [unfold HDR in *; lia|]. split.
    + intros i Hi. apply (live_chunk E h0 w a0 fs al fl p n (p + i) I Hp). lia.
    + intros x Hx. destruct (inv_own _ _ _ _ _ _ _ I x Hx) as [_ B]. specialize (B _ _ A1). unfold HDR in *. lia.
Qed.
Print Assumptions C27_live_disjoint_partial.
(** The missing sizes: a chunk is reused when its total size, header included, is large enough.
    After malloc(4084) and free, malloc(4090) returns the same chunk, whose last bytes are not
    accessible. *)
Theorem C27_reuse_refuted : exists E h0 w size p h', os_ok E /\ fresh E h0 /\ history E h0 w /\ 0 < size <= 2147479540 /\
  evals (fun F => malloc E F size) (mem w) p h' /\ p <> 0 /\ ~ accessible h' p size.
Proof.
  exists demo_E, demo_h0, demo_w, 4090, (262144 + 12), (mem_of (malloc demo_E 20 4090 demo4)).
  split; [exact demo_os_ok|]. split; [exact demo_fresh|]. split; [exact demo_history|]. split; [lia|]. split; [|split; [lia|]].
  - apply (malloc_run _ 20). apply mem_of_eq. vm_compute. reflexivity.
  - intros A. specialize (A 4085 ltac:(lia)). apply A. vm_compute. reflexivity.
Qed.
Print Assumptions C27_reuse_refuted.
(** malloc(0) and negative sizes return NULL and change nothing *)
Theorem C27_malloc_nonpositive : forall E F size h, size <= 0 -> malloc E F size h = Some (0, h).
Proof. intros E F size h H. unfold malloc. destruct (Z.leb_spec size 0); [reflexivity|lia]. Qed.
Print Assumptions C27_malloc_nonpositive.

(** *** C28: free *)
(** free of a live block returns, changes no other block and none of the program's memory, and
    gives nothing back to the system *)
Theorem C28_free : forall E h0 w p n, os_ok E -> fresh E h0 -> history E h0 w -> In (p, n) (live w) ->
  exists h', free E p (mem w) = Some (false, h') /\ untouched E h0 (live w) (mem w) h' /\ forall x, h' x = None <-> mem w x = None.
Proof.
  intros E h0 w p n Os Fr H Hp. destruct (history_ok E h0 w Os Fr H) as [(_ & L & _)|(a0 & fs & al & fl & I)]; [rewrite L in Hp; destruct Hp|].
  destruct (free_inv E h0 w a0 fs al fl p n I Hp) as (h' & al' & fl' & Ev & U & D & _). eauto.
Qed.
Print Assumptions C28_free.
Theorem C28_free_null : forall E h, free E 0 h = Some (false, h).
Proof. reflexivity. Qed.
Print Assumptions C28_free_null.
(** a second free of a block that was not handed out again is diagnosed, nothing is changed *)
Theorem C28_double_free : forall E h0 w p n, os_ok E -> fresh E h0 -> history E h0 w -> In (p, n) (freed w) ->
  free E p (mem w) = Some (true, mem w).
Proof.
  intros E h0 w p n Os Fr H Hp. destruct (history_ok E h0 w Os Fr H) as [(_ & _ & L & _)|(a0 & fs & al & fl & I)]; [rewrite L in Hp; destruct Hp|].
  destruct (inv_freed _ _ _ _ _ _ _ I _ _ Hp) as (k & Hk & _). destruct (inv_ready _ _ _ _ _ _ _ I) as (Rg & f & P & A & F).
  replace p with (p - HDR + HDR) by lia. eapply free_double; eauto. right. right. apply in_app_iff. auto.
Qed.
Print Assumptions C28_double_free.
(** after a free, a request that is no larger needs nothing from the system *)
Theorem C28_recycle : forall E h0 w p n size, os_ok E -> fresh E h0 -> history E h0 w -> In (p, n) (freed w) -> fits size -> size <= n ->
  exists q h', evals (fun F => malloc E F size) (mem w) q h' /\ allocated E h0 w size q h' /\ forall x, h' x = None <-> mem w x = None.
Proof.
  intros E h0 w p n size Os Fr H Hp Fs Le. destruct (history_ok E h0 w Os Fr H) as [(_ & _ & L & _)|(a0 & fs & al & fl & I)]; [rewrite L in Hp; destruct Hp|].
  destruct (inv_freed _ _ _ _ _ _ _ I _ _ Hp) as (k & Hk & Sk).
  assert (Big : size <= k) by (unfold HDR in Sk; lia).
  destruct (malloc_inv E h0 w a0 fs al fl size Os I Fs) as (q & h' & al' & fl' & Ev & Al & _ & D).
  - intros Q. specialize (Q _ Hk). cbn [snd] in Q. lia.
  - exists q, h'. split; [exact Ev|]. split; [exact Al|]. apply D. exists (p - HDR, k). split; [exact Hk|exact Big].
Qed.
Print Assumptions C28_recycle.

(** *** C29: calloc *)
Theorem C29_calloc_partial : forall E h0 w n size p h', os_ok E -> fresh E h0 -> history E h0 w -> 0 <= n -> 0 <= size -> fits (n * size) ->
  evals (fun F => calloc E F n size) (mem w) p h' -> allocated E h0 w (n * size) p h' /\ cleared h' p (n * size).
Proof.
  intros E h0 w n size p h' Os Fr H Hn Hs Fs Ev.
  destruct (malloc_ran E h0 w (n * size) Os (history_ok E h0 w Os Fr H) Fs) as (p1 & h1 & a0 & fs & al & fl & Ev1 & Al & Iv).
  { apply calloc_malloc; auto; [unfold fits in Fs; lia|]. eapply evals_returns; eauto. }
  destruct (calloc_from E h0 w n size p1 h1 a0 fs al fl Hn Hs Fs Ev1 Al Iv) as (h2 & Ev2 & Al2 & Cl & _).
  destruct (evals_det _ _ _ _ _ _ Ev Ev2) as [-> ->]. auto.
Qed.
Print Assumptions C29_calloc_partial.
Theorem C29_calloc_returns_partial : forall E h0 w n size, os_ok E -> fresh E h0 -> history E h0 w -> 0 <= n -> 0 <= size -> fits (n * size) ->
  grants E (mem w) (n * size) -> exists p h', evals (fun F => calloc E F n size) (mem w) p h'.
Proof.
  intros E h0 w n size Os Fr H Hn Hs Fs Gr.
  destruct (malloc_ok E h0 w (n * size) Os (history_ok E h0 w Os Fr H) Fs Gr) as (p & h1 & Ev & _ & _).
  destruct (malloc_ran E h0 w (n * size) Os (history_ok E h0 w Os Fr H) Fs (evals_returns _ _ _ _ Ev)) as (p1 & h2 & a0 & fs & al & fl & Ev1 & Al & Iv).
  destruct (calloc_from E h0 w n size p1 h2 a0 fs al fl Hn Hs Fs Ev1 Al Iv) as (h3 & Ev2 & _). eauto.
Qed.
Print Assumptions C29_calloc_returns_partial.
(** n * size is computed in 32 bits, without a check: calloc(858993460, 5) returns a 4-byte block *)
Theorem C29_overflow_refuted : exists E h0 w n size p h', os_ok E /\ fresh E h0 /\ history E h0 w /\ is_i32 n /\ is_i32 size /\ 0 < n /\ 0 < size /\
  evals (fun F => calloc E F n size) (mem w) p h' /\ p <> 0 /\ ~ accessible h' p (n * size).
Proof.
  exists demo_E, demo_h0, {| mem := demo_h0; live := []; freed := [] |}, 858993460, 5, (196608 + 12), (mem_of (calloc demo_E 20 858993460 5 demo_h0)).
  split; [exact demo_os_ok|]. split; [exact demo_fresh|]. split; [apply hist_start|]. unfold is_i32. split; [lia|]. split; [lia|]. split; [lia|]. split; [lia|]. split; [|split; [lia|]].
  - apply (calloc_run _ 20). apply mem_of_eq. vm_compute. reflexivity.
  - intros A. specialize (A 4096 ltac:(lia)). apply A. vm_compute. reflexivity.
Qed.
Print Assumptions C29_overflow_refuted.

(** The hypotheses are met: in the state of [demo_history] the next malloc(60) and calloc(7, 5) return,
    the second live block keeps the byte the program wrote, and a double free is diagnosed. *)
Example C27_applies : exists p h', evals (fun F => malloc demo_E F 60) demo4 p h' /\ allocated demo_E demo_h0 demo_w 60 p h' /\ h' (196608 + 12 + 99) = Some 65.
Proof.
  exists (262144 + 12), (mem_of (malloc demo_E 20 60 demo4)).
  assert (Ev : evals (fun F => malloc demo_E F 60) demo4 (262144 + 12) (mem_of (malloc demo_E 20 60 demo4))) by (apply (malloc_run _ 20), mem_of_eq; vm_compute; reflexivity).
  split; [exact Ev|]. split; [|vm_compute; reflexivity].
  apply (C27_returned_partial demo_E demo_h0 demo_w); [exact demo_os_ok|exact demo_fresh|exact demo_history|unfold fits; lia|exact Ev].
Qed.
Example C28_applies : free demo_E (262144 + 12) demo4 = Some (true, demo4) /\ exists h', free demo_E (196608 + 12) demo4 = Some (false, h').
Proof.
  split.
  - apply (C28_double_free demo_E demo_h0 demo_w (262144 + 12) 4084 demo_os_ok demo_fresh demo_history). left. reflexivity.
  - destruct (C28_free demo_E demo_h0 demo_w (196608 + 12) 100 demo_os_ok demo_fresh demo_history) as (h' & H & _); [left; reflexivity|]. eauto.
Qed.
Example C29_applies : exists p h', evals (fun F => calloc demo_E F 7 5) demo4 p h' /\ cleared h' p 35.
Proof.
  exists (262144 + 12), (mem_of (calloc demo_E 50 7 5 demo4)).
  assert (Ev : evals (fun F => calloc demo_E F 7 5) demo4 (262144 + 12) (mem_of (calloc demo_E 50 7 5 demo4))) by (apply (calloc_run _ 50), mem_of_eq; vm_compute; reflexivity).
  split; [exact Ev|]. apply (C29_calloc_partial demo_E demo_h0 demo_w 7 5 (262144 + 12)); [exact demo_os_ok|exact demo_fresh|exact demo_history|lia|lia|unfold fits; lia|exact Ev].
Qed.
