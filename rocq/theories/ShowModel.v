(** Model of the printing of scalars and arrays: showArr(), src/sharedarray.cpp:93-145, FmtDelta::field(), src/datafmt.cpp:17-49, for marked fields which are scalars or
    arrays of scalars, and FmtTree::show_value(), src/datafmt.cpp:126-175, for scalars.

    Left out: floating point numbers, compound fields, and the indentation of the caller.

    No proofs in this file. *)
From Coq Require Import String ZArith List Bool.
From Verif Require Import Base TextModel.
Import ListNotations.
Local Open Scope Z_scope.

Inductive elem := EInt (z : Z) | EBool (b : bool) | EStr (s : str).
(** Print<E>::as(), src/sharedarray.cpp:93-102; a bool as 0 or 1 *)
Definition show_elem (e : elem) : str :=
  match e with EInt z => print_int z | EBool b => [if b then 49 else 48] | EStr s => 34 :: escape s ++ [34] end.
(** the loop of showArr(), :114-122; a [limit] of zero is none *)
Definition reached (limit i : nat) : bool := negb (Nat.eqb limit 0) && Nat.leb limit i.
Fixpoint show_elems (limit i : nat) (l : list elem) : str :=
  match l with
  | [] => []
  | e :: r => (if Nat.eqb i 0 then [] else [44; 32]) ++ (if reached limit i then [46; 46; 46] else show_elem e ++ show_elems limit (S i) r)
  end.
(** showArr(), :104-124 *)
Definition show_arr (limit : nat) (l : list elem) : str :=
  123 :: print_int (Z.of_nat (length l)) ++ [125; 91] ++ show_elems limit 0 l ++ [93].

(** TypeCode::name(), src/type.cpp:126-166 *)
Inductive sty := TBool | TI8 | TI16 | TI32 | TI64 | TU8 | TU16 | TU32 | TU64 | TStr.
Definition sty_name (t : sty) : str :=
  match t with
  | TBool => bs "bool" | TI8 => bs "int8_t" | TI16 => bs "int16_t" | TI32 => bs "int32_t" | TI64 => bs "int64_t"
  | TU8 => bs "uint8_t" | TU16 => bs "uint16_t" | TU32 => bs "uint32_t" | TU64 => bs "uint64_t" | TStr => bs "string"
  end.
Inductive content := Scalar (e : elem) | Array (l : list elem).
(** FmtDelta::field(), src/datafmt.cpp:30-46 *)
Definition delta_scalar (e : elem) : str :=
  match e with EInt z => print_int z | EBool b => print_bool b | EStr s => 34 :: escape s ++ [34] end.
Record leaf := { l_name : str; l_type : sty; l_content : content }.
Definition delta_line (limit : nat) (x : leaf) : str :=
  l_name x ++ 32 :: sty_name (l_type x) ++
  match l_content x with Scalar e => [32; 61; 32] ++ delta_scalar e | Array l => [91; 93; 32; 61; 32] ++ show_arr limit l end ++ [10].
(** FmtDelta::top(), :96-117, for the marked fields of a structure *)
Definition delta_lines (limit : nat) (l : list leaf) : str := flat_map (delta_line limit) l.
(** FmtTree::show_value(), src/datafmt.cpp:126-149: int8_t and uint8_t are characters to an ostream *)
Definition tree_scalar (t : sty) (e : elem) : str :=
  match e with
  | EInt z => match t with TI8 | TU8 => [z mod 256] | _ => print_int z end
  | EBool b => print_bool b
  | EStr s => 34 :: escape s ++ [34]
  end.
