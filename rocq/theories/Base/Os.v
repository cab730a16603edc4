(** The operating system as seen by a process: how many arguments each system
    call takes, and its effect ([None]: the process ends).  Specification side;
    shared by the IR interpreter and the machine models. *)
From Verif.Base Require Export Int32 Mem.

Record osspec := mkos {
  os_nargs : Z -> nat;
  os_call : Z -> list Z -> mem -> option (Z * mem) }.

Definition event := (Z * list Z)%type.
