(** Words for what is promised of printed values. *)
From Coq Require Import String ZArith List Bool.
From Verif Require Import Base ShowModel.
Import ListNotations.
Local Open Scope Z_scope.

(** An element as a field of a type has it. *)
Definition of_type (t : sty) (e : elem) : Prop :=
  match t, e with
  | TBool, EBool _ => True
  | TStr, EStr s => is_bytes s
  | TBool, _ | TStr, _ => False
  | _, EInt z => True
  | _, _ => False
  end.
(** Names of fields have no space in them. *)
Definition proper (x : leaf) : Prop := Forall (fun c => c <> 32) (l_name x) /\
  match l_content x with Scalar e => of_type (l_type x) e | Array l => Forall (of_type (l_type x)) l end.
(** What is shown of an array: all of it without a limit, else the first elements. *)
Definition shown (limit : nat) (l : list elem) : list elem := match limit with O => l | _ => firstn limit l end.
(** As far as the text tells, the same field with the same value. *)
Definition alike (limit : nat) (x y : leaf) : Prop := l_name x = l_name y /\ l_type x = l_type y /\
  match l_content x, l_content y with
  | Scalar a, Scalar b => a = b
  | Array a, Array b => length a = length b /\ shown limit a = shown limit b
  | _, _ => False
  end.
