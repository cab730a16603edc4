(** Model of error(), src/globals.c:957-990, up to the text it prints.  The source buffer is the list of its bytes; reading outside
    it, and writing outside the 512 bytes of diagnostic, is None. *)
From Verif.Base Require Export Int32.
Open Scope Z_scope.

Definition MAX_SOURCE : Z := 524288.               (* src/defs.h:30 *)
Definition element (src : list Z) (i : Z) : option Z := if i <? 0 then None else nth_error src (Z.to_nat i).
(* src/globals.c:965-967: for (offset = size; offset >= 0 && elements[offset] != '\n'; offset--); *)
Fixpoint back (fuel : nat) (src : list Z) (offset : Z) : option Z :=
  match fuel with
  | O => None
  | S k => if offset >=? 0 then match element src offset with Some c => if c =? 10 then Some offset else back k src (offset - 1) | None => None end else Some offset
  end.
(* diagnostic[i++] = c *)
Definition append (d : list Z) (c : Z) : option (list Z) := if (length d <? 512)%nat then Some (d ++ [c]) else None.
(* src/globals.c:971-975 *)
Fixpoint copy_line (fuel : nat) (src : list Z) (start offset : Z) (d : list Z) : option (list Z) :=
  match fuel with
  | O => None
  | S k =>
      if offset <? MAX_SOURCE then
        match element src (start + offset) with
        | Some c => if c =? 10 then Some d else match append d c with Some d => copy_line k src start (offset + 1) d | None => None end
        | None => None
        end
      else Some d
  end.
(* src/globals.c:978-980 *)
Fixpoint pad (n : nat) (d : list Z) : option (list Z) :=
  match n with O => Some d | S k => match append d 32 with Some d => pad k d | None => None end end.
Definition here : list Z := [94; 32; 69; 114; 114; 111; 114; 32; 111; 99; 99; 117; 114; 115; 32; 104; 101; 114; 101].   (* "^ Error occurs here" *)
(* src/globals.c:957-982: diagnostic, when SOURCE->size is [size] *)
Definition diagnostic (src : list Z) (size : Z) : option (list Z) :=
  match back (Z.to_nat size + 2) src size with
  | None => None
  | Some offset =>
      let start_idx := offset + 1 in
      match copy_line (length src + 2) src start_idx 0 [] with
      | None => None
      | Some d =>
          match append d 10 with
          | None => None
          | Some d =>
              match pad (Z.to_nat (size - start_idx)) d with
              | None => None
              | Some d => if (length d + length here + 1 <=? 512)%nat then Some (d ++ here) else None
              end
          end
      end
  end.
