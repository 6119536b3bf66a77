(** Model of version numbers, src/pvxs/version.h:36-51, 90-93, and src/util.cpp:38-48.

    Numbers are integers without bound; they are compared as unsigned long, which makes no difference below 128 for the first number and 256 for the others.

    No proofs in this file. *)
From Coq Require Import ZArith Bool.
Local Open Scope Z_scope.

(** PVXS_MAJOR_VERSION, PVXS_MINOR_VERSION and PVXS_MAINTENANCE_VERSION, configure/CONFIG_PVXS_VERSION:1-3 *)
Record version := { major : Z; minor : Z; maintenance : Z }.
(** VERSION_INT(), src/pvxs/version.h:38 *)
Definition VERSION_INT (V R M P : Z) : Z := Z.lor (Z.lor (Z.lor (Z.shiftl V 24) (Z.shiftl R 16)) (Z.shiftl M 8)) P.
(** PVXS_VERSION and PVXS_ABI_VERSION, src/pvxs/version.h:46, 50; also pvxs::version_int() and version_abi_int() *)
Definition PVXS_VERSION (v : version) : Z := VERSION_INT (major v) (minor v) (maintenance v) 0.
Definition PVXS_ABI_VERSION (v : version) : Z := VERSION_INT (major v) (minor v) 0 0.
(** version_abi_check() of a program compiled with headers of one version and run with a library of another, src/pvxs/version.h:91-93 *)
Definition version_abi_check (headers library : version) : bool :=
  (PVXS_ABI_VERSION headers =? PVXS_ABI_VERSION library) && (PVXS_VERSION headers <=? PVXS_VERSION library).
