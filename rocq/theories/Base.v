(** Shared vocabulary: bytes, byte strings, machine integers. *)
From Coq Require Import Ascii String ZArith List Bool.
Import ListNotations.
Local Open Scope Z_scope.

(** A byte string (std::string, raw buffer content).  Elements are bytes when
    [is_bytes] holds. *)
Definition str := list Z.

Definition is_byte (z : Z) : Prop := 0 <= z < 256.
Definition is_bytes (l : list Z) : Prop := Forall is_byte l.

(** length of a list as a machine size *)
Definition zlen {A} (l : list A) : Z := Z.of_nat (List.length l).

(** Text literals for examples. *)
Fixpoint bs (s : string) : str :=
  match s with
  | EmptyString => []
  | String c s' => Z.of_N (N_of_ascii c) :: bs s'
  end.

(** C++ conversion to an unsigned / signed [n] byte integer (two's complement). *)
Definition u_cast (nbytes : nat) (v : Z) : Z := v mod 2 ^ (8 * Z.of_nat nbytes).
Definition s_cast (nbytes : nat) (v : Z) : Z :=
  let m := 2 ^ (8 * Z.of_nat nbytes) in
  let u := v mod m in
  if u <? m / 2 then u else u - m.

(** Decidable equality on byte strings. *)
Fixpoint str_eqb (a b : str) : bool :=
  match a, b with
  | [], [] => true
  | x :: a', y :: b' => (x =? y) && str_eqb a' b'
  | _, _ => false
  end.

(** Lexicographic order on byte strings: operator< of std::string on
    (unsigned) bytes, as used by std::map<std::string, ...>. *)
Fixpoint str_ltb (a b : str) : bool :=
  match a, b with
  | [], [] => false
  | [], _ :: _ => true
  | _ :: _, [] => false
  | x :: a', y :: b' => (x <? y) || ((x =? y) && str_ltb a' b')
  end.
