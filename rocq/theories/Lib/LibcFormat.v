(** Model of the formatted output functions of lib/c.c:123-384. *)
From Verif.Lib Require Export CMem LibcString.
Open Scope cm_scope.

Notation "' pat <- e ;; k" := (bind e (fun x => let pat := x in k))
  (at level 90, pat pattern, e at level 80, right associativity) : cm_scope.

(* lib/c.c:44 *)
Definition INT_BUF_LEN : Z := 16.
Definition INT_MAX : Z := 2147483647.

(** A local array is an object of its own that nothing else can point to: the operation [m]
    on it runs in the private heap [p]; the program's memory is not touched. *)
Definition priv {A} (p : heap) (m : M A) : M (A * heap) :=
  fun h => match m p with Some (a, p') => Some ((a, p'), h) | None => None end.

(** The private heap of __format: pb at address 0, uninitialised ([junk]), and the string
    literal "-2147483648" of __str_base10 at address LIT. *)
Definition LIT : Z := 1000.
Definition int_min_text : list Z := [45; 50; 49; 52; 55; 52; 56; 51; 54; 52; 56].
Definition pb_frame (junk : Z -> Z) : heap := fun x =>
  if (0 <=? x) && (x <? INT_BUF_LEN) then Some (junk x mod 256)
  else if (LIT <=? x) && (x <? LIT + 12) then Some (nth (Z.to_nat (x - LIT)) (int_min_text ++ [0]) 0)
  else None.

Section LibcFormat.
  Variable sc : bool.
  Let load := load sc.
  (** contents of the uninitialised stack array [pb] *)
  Variable junk : Z -> Z.

  (* lib/c.c:137-170 __str_base10 *)
  Definition str_base10 (F : nat) (pb val : Z) : M unit :=
    if val =? -2147483648 then
      strncpy sc F (pb + INT_BUF_LEN - 11) LIT 11 ;;; ret tt
    else
      let neg := if val <? 0 then 1 else 0 in
      let val := if val <? 0 then ineg val else val in
      i <- loop (fun '(val, i) =>
        if val =? 0 then ret (inr i)
        else
          let q := iadd (ishr val 1) (ishr val 2) in
          let q := iadd q (ishr q 4) in
          let q := iadd q (ishr q 8) in
          let q := iadd q (ishr q 16) in
          let q := ishr q 3 in
          let r := isub val (ishl (iadd (ishl q 2) q) 1) in
          let t := ishr (iadd r 6) 4 in
          let q := iadd q t in
          let r := isub r (ishl (iadd (ishl t 2) t) 1) in
          c <- load (pb + i) ;;
          store (pb + i) (iadd c r) ;;;
          ret (inl (q, isub i 1))) F (val, INT_BUF_LEN - 1) ;;
      if neg =? 1 then store (pb + i) 45 else ret tt.

  (* lib/c.c:172-192 __str_base8: times = (sizeof(int) << 3) / 3 = 10 *)
  Definition str_base8 (F : nat) (pb val : Z) : M unit :=
    let times := (4 * 8) / 3 in
    '(val, c) <- loop (fun '(val, c, i) =>
      if i <? times then
        let v := iand val 7 in
        store (pb + c) (iadd 48 v) ;;;
        ret (inl (ishr val 3, isub c 1, iadd i 1))
      else ret (inr (val, c))) F (val, INT_BUF_LEN - 1, 0) ;;
    let v := iand val 3 in
    store (pb + c) (iadd 48 v).

  (* lib/c.c:194-211 __str_base16: times = sizeof(int) << 1 = 8; the call of abort() is
     the failing run *)
  Definition str_base16 (F : nat) (pb val : Z) : M unit :=
    let times := 4 * 2 in
    loop (fun '(val, c, i) =>
      if i <? times then
        let v := iand val 15 in
        (if v <? 10 then store (pb + c) (iadd 48 v)
         else if v <? 16 then store (pb + c) (isub (iadd 97 v) 10)
         else fail) ;;;
        ret (inl (ishr val 4, isub c 1, iadd i 1))
      else ret (inr tt)) F (val, INT_BUF_LEN - 1, 0).

  (* lib/c.c:213-292 __format; [abort()] on an unknown base is the failing run *)
  Definition format (F : nat) (buffer val width zeropad base alternate_form : Z) : M Z :=
    (* set to zeroes *)
    '(_, pb) <- priv (pb_frame junk) (loop (fun pbi =>
        if pbi <? INT_BUF_LEN then store pbi 48 ;;; ret (inl (iadd pbi 1)) else ret (inr tt)) F 0) ;;
    '(_, pb) <- priv pb (if base =? 8 then str_base8 F 0 val
                         else if base =? 10 then str_base10 F 0 val
                         else if base =? 16 then str_base16 F 0 val
                         else fail) ;;
    '(pbi, pb) <- priv pb (loop (fun pbi =>
        c <- load pbi ;;
        if (c =? 48) && (pbi <? INT_BUF_LEN - 1) then ret (inl (iadd pbi 1)) else ret (inr pbi)) F 0) ;;
    '(c, pb) <- priv pb (load pbi) ;;
    (* the second switch: sign or prefix; yields bi, pbi, width and pb *)
    '(bi, pbi, width, pb) <-
      (if base =? 8 then
         if negb (alternate_form =? 0) then
           if negb (width =? 0) && negb (zeropad =? 0) && negb (c =? 48) then
             store (buffer + 0) 48 ;;; ret (1, pbi, isub width 1, pb)
           else if negb (c =? 48) then
             '(_, pb) <- priv pb (store (pbi - 1) 48) ;;
             ret (0, pbi - 1, width, pb)
           else ret (0, pbi, width, pb)
         else ret (0, pbi, width, pb)
       else if base =? 10 then
         if negb (width =? 0) && negb (zeropad =? 0) && (c =? 45) then
           store (buffer + 0) 45 ;;; ret (1, pbi + 1, isub width 1, pb)
         else ret (0, pbi, width, pb)
       else
         if negb (alternate_form =? 0) then
           if negb (width =? 0) && negb (zeropad =? 0) && negb (c =? 48) then
             store (buffer + 0) 48 ;;;
             store (buffer + 1) 120 ;;; ret (2, pbi, isub width 2, pb)
           else if negb (c =? 48) then
             '(_, pb) <- priv pb (store (pbi - 1) 120) ;;
             '(_, pb) <- priv pb (store (pbi - 2) 48) ;;
             ret (0, pbi - 2, width, pb)
           else ret (0, pbi, width, pb)
         else ret (0, pbi, width, pb)) ;;
    let width := isub width (INT_BUF_LEN - pbi) in
    let width := if width <? 0 then 0 else width in
    bi <- loop (fun '(bi, width) =>
      if width =? 0 then ret (inr bi)
      else
        store (buffer + bi) (if negb (zeropad =? 0) then 48 else 32) ;;;
        ret (inl (iadd bi 1, isub width 1))) F (bi, width) ;;
    loop (fun '(bi, pbi) =>
      if pbi <? INT_BUF_LEN then
        '(c, _) <- priv pb (load pbi) ;;
        store (buffer + bi) c ;;;
        ret (inl (iadd bi 1, iadd pbi 1))
      else ret (inr bi)) F (bi, pbi).

  (* lib/c.c:315-323: the width *)
  Definition read_width (F : nat) (format si : Z) : M (Z * Z) :=
    c <- load (format + si) ;;
    if (c >=? 49) && (c <=? 57) then
      loop (fun '(w, si) =>
        c <- load (format + si) ;;
        if (c >=? 48) && (c <=? 57) then ret (inl (iadd (imul w 10) (isub c 48), iadd si 1))
        else ret (inr (w, si))) F (isub c 48, iadd si 1)
    else ret (0, si).

  (* lib/c.c:294-367 __format_to_buf.  [args i] is var_args[i]; reading beyond the
     arguments passed yields whatever the stack holds. *)
  Definition format_to_buf (F : nat) (buffer fmt : Z) (args : Z -> Z) (size : Z) : M Z :=
    if size =? 0 then ret 0
    else
      bi <- loop (fun '(si, bi, pi) =>
        c <- load (fmt + si) ;;
        if negb (c =? 0) && (bi <? isub size 1) then
          if negb (c =? 37) then
            store (buffer + bi) c ;;; ret (inl (iadd si 1, iadd bi 1, pi))
          else
            let v := args pi in
            let si := iadd si 1 in
            c <- load (fmt + si) ;;
            let pp := if c =? 35 then 1 else 0 in
            let si := if c =? 35 then iadd si 1 else si in
            c <- load (fmt + si) ;;
            let zp := if c =? 48 then 1 else 0 in
            let si := if c =? 48 then iadd si 1 else si in
            '(w, si) <- read_width F fmt si ;;
            c <- load (fmt + si) ;;
            if c =? 115 then      (* s *)
              l <- strlen sc F v ;;
              let l := if l <? isub size bi then l else isub size bi in
              strncpy sc F (buffer + bi) v l ;;;
              ret (inl (iadd si 1, iadd bi l, iadd pi 1))
            else if c =? 99 then  (* c *)
              store (buffer + bi) v ;;;
              ret (inl (iadd si 1, iadd bi 1, iadd pi 1))
            else if c =? 111 then (* o *)
              n <- format F (buffer + bi) v w zp 8 pp ;;
              ret (inl (iadd si 1, iadd bi n, iadd pi 1))
            else if c =? 100 then (* d *)
              n <- format F (buffer + bi) v w zp 10 0 ;;
              ret (inl (iadd si 1, iadd bi n, iadd pi 1))
            else if c =? 120 then (* x *)
              n <- format F (buffer + bi) v w zp 16 pp ;;
              ret (inl (iadd si 1, iadd bi n, iadd pi 1))
            else if c =? 37 then  (* % *)
              store (buffer + bi) 37 ;;;
              ret (inl (iadd si 1, iadd bi 1, pi))
            else ret (inl (iadd si 1, bi, iadd pi 1))
        else ret (inr bi)) F (0, 0, 0) ;;
      let len := if isub size 1 >? bi then bi else isub size 1 in
      store (buffer + len) 0 ;;;
      ret len.

  (* lib/c.c:376-379 sprintf, 381-384 snprintf *)
  Definition sprintf (F : nat) (buffer str : Z) (args : Z -> Z) : M Z := format_to_buf F buffer str args INT_MAX.
  Definition snprintf (F : nat) (buffer n str : Z) (args : Z -> Z) : M Z := format_to_buf F buffer str args n.
End LibcFormat.
