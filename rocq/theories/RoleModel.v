(** Model of ClientCredentials::roles(), src/serverconn.cpp:33-38, and osdGetRoles(), src/osgroups.cpp:54-125, for Unix.

    What the system knows is a parameter: accounts, groups and their names, and how getgrouplist() tells that there are more groups than room.  These do not change during a call,
    and numbers of groups do not overflow an int.

    No proofs in this file. *)
From Coq Require Import List Bool Arith ZArith.
From Verif Require Import Base.
Import ListNotations.

(** What getgrouplist() leaves in its count when there are too many groups: their number (glibc), the same (Mac), or something less. *)
Inductive libc := Reports | Keeps | Shrinks.
(** The answers of the system to osdGetRoles(), src/osgroups.cpp:56, 88, 122 *)
Record sys := {
  pw : str -> option (str * Z);     (** getpwnam(): name and primary group *)
  groups : str -> Z -> list Z;      (** all groups getgrouplist() has to give *)
  grname : Z -> option str;         (** getgrgid() *)
  lib : libc
}.
(** getgrouplist(), as src/osgroups.cpp:69-81 says of it: what it writes, or None for -1; and the count *)
Definition getgrouplist (s : sys) (name : str) (gid : Z) (room : nat) : option (list Z) * nat :=
  let g := groups s name gid in
  if length g <=? room then (Some g, length g)
  else (None, match lib s with Reports => length g | Keeps => room | Shrinks => room - 1 end).
(** the loop, src/osgroups.cpp:86-113; None = more iterations than [fuel] *)
Fixpoint all_groups (fuel : nat) (s : sys) (name : str) (gid : Z) (room : nat) : option (list Z) :=
  match fuel with
  | O => None
  | S f =>
      match getgrouplist s name gid room with
      | (Some l, n) => if n <=? room then Some (firstn n l) else Some []
      | (None, n) => if n =? room then all_groups f s name gid (room * 2) else if room <? n then all_groups f s name gid n else Some []
      end
  end.
(** the number of gids at first, src/osgroups.cpp:84 *)
Definition guess : nat := 16.
(** the names of groups which have one, src/osgroups.cpp:120-124; a list stands for the set *)
Fixpoint names (s : sys) (l : list Z) : list str :=
  match l with [] => [] | g :: r => match grname s g with Some n => n :: names s r | None => names s r end end.
(** osdGetRoles(), src/osgroups.cpp:54-67, 116-124 *)
Definition roles (fuel : nat) (s : sys) (account : str) : option (list str) :=
  match pw s account with
  | None => Some [account]
  | Some (name, gid) => option_map (fun l => names s (gid :: l)) (all_groups fuel s name gid guess)
  end.
