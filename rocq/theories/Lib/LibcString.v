(** Model of the string functions of lib/c.c:50-121.  [sc]: plain char is signed. *)
From Verif.Lib Require Export CMem.
Open Scope cm_scope.

Section LibcString.
  Variable sc : bool.
  Let load := load sc.

  (* lib/c.c:50-56 strlen *)
  Definition strlen (F : nat) (str : Z) : M Z :=
    loop (fun i =>
      c <- load (str + i) ;;
      if c =? 0 then ret (inr i) else ret (inl (iadd i 1))) F 0.

  (* lib/c.c:58-69 strcmp *)
  Definition strcmp (F : nat) (s1 s2 : Z) : M Z :=
    loop (fun i =>
      a <- load (s1 + i) ;;
      if a =? 0 then (b <- load (s2 + i) ;; ret (inr (isub a b)))
      else
        b <- load (s2 + i) ;;
        if b =? 0 then ret (inr (isub a b))
        else if a <? b then ret (inr (-1))
        else if a >? b then ret (inr 1)
        else ret (inl (iadd i 1))) F 0.

  (* lib/c.c:71-84 strncmp *)
  Definition strncmp (F : nat) (s1 s2 len : Z) : M Z :=
    loop (fun i =>
      if i <? len then
        a <- load (s1 + i) ;;
        b <- load (s2 + i) ;;
        if a <? b then ret (inr (-1))
        else if a >? b then ret (inr 1)
        else if a =? 0 then ret (inr 0)
        else ret (inl (iadd i 1))
      else ret (inr 0)) F 0.

  (* lib/c.c:86-95 strcpy *)
  Definition strcpy (F : nat) (dest src : Z) : M Z :=
    i <- loop (fun i =>
      c <- load (src + i) ;;
      if c =? 0 then ret (inr i)
      else store (dest + i) c ;;; ret (inl (iadd i 1))) F 0 ;;
    store (dest + i) 0 ;;;
    ret dest.

  (* lib/c.c:97-112 strncpy; loop state: i and beyond *)
  Definition strncpy (F : nat) (dest src len : Z) : M Z :=
    loop (fun '(i, beyond) =>
      if i <? len then
        if beyond =? 0 then
          c <- load (src + i) ;;
          store (dest + i) c ;;;
          ret (inl (iadd i 1, if c =? 0 then 1 else 0))
        else
          store (dest + i) 0 ;;;
          ret (inl (iadd i 1, beyond))
      else ret (inr dest)) F (0, 0).

  (* lib/c.c:114-121 memcpy *)
  Definition memcpy (F : nat) (dest src count : Z) : M Z :=
    loop (fun count =>
      if count >? 0 then
        let count := count - 1 in
        c <- load (src + count) ;;
        store (dest + count) c ;;;
        ret (inl count)
      else ret (inr dest)) F count.
End LibcString.
