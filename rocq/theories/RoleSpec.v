(** What the roles of an account are to be. *)
From Coq Require Import List ZArith.
From Verif Require Import Base RoleModel.
Import ListNotations.

(** The account is a member of the group of that name: it is its primary group, or one listed for it. *)
Definition member_of (s : sys) (account group : str) : Prop :=
  exists name gid g, pw s account = Some (name, gid) /\ (g = gid \/ In g (groups s name gid)) /\ grname s g = Some group.
Definition known (s : sys) (account : str) : Prop := exists e, pw s account = Some e.
