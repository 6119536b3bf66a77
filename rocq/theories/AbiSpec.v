(** When a library may be used with a program, and which of two versions is the older one. *)
From Coq Require Import ZArith.
From Verif Require Import AbiModel.
Local Open Scope Z_scope.

(** numbers for which VERSION_INT() is meant *)
Definition fits (V R M P : Z) : Prop := 0 <= V < 128 /\ 0 <= R < 256 /\ 0 <= M < 256 /\ 0 <= P < 256.
Definition usual (v : version) : Prop := fits (major v) (minor v) (maintenance v) 0.
(** as the documentation of version_abi_check() says: same ABI, and the headers not newer than the library *)
Definition compatible (headers library : version) : Prop :=
  major headers = major library /\ minor headers = minor library /\ maintenance headers <= maintenance library.
(** order of versions: the first number which differs decides *)
Definition older (a b : version) : Prop :=
  major a < major b \/ (major a = major b /\ (minor a < minor b \/ (minor a = minor b /\ maintenance a < maintenance b))).
