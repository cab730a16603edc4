(** Byte-addressed 32-bit memory, little endian.  Part of the *specification*
    (both machine models and the IR semantics use it). *)
From Verif.Base Require Export Int32.

Definition mem := Z -> Z.

Definition ldb (m : mem) (a : Z) : Z := m (w32 a) mod 256.
Definition ldh (m : mem) (a : Z) : Z := ldb m a + 256 * ldb m (a + 1).
Definition ldw (m : mem) (a : Z) : Z :=
  ldb m a + 256 * ldb m (a + 1) + 65536 * ldb m (a + 2) + 16777216 * ldb m (a + 3).

Definition stb (m : mem) (a v : Z) : mem :=
  fun x => if x =? w32 a then v mod 256 else m x.
Definition sth (m : mem) (a v : Z) : mem := stb (stb m a v) (a + 1) (v / 256).
Definition stw (m : mem) (a v : Z) : mem :=
  stb (stb (stb (stb m a v) (a + 1) (v / 256)) (a + 2) (v / 65536)) (a + 3) (v / 16777216).

(** [words_at m a ws]: the words [ws] lie consecutively at address [a]. *)
Fixpoint words_at (m : mem) (a : Z) (ws : list Z) : Prop :=
  match ws with
  | [] => True
  | w :: r => ldw m a = w32 w /\ words_at m (a + 4) r
  end.
