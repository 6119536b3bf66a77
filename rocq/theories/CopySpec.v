(** Specification vocabulary for assignment and extraction. *)
From Coq Require Import ZArith List Bool.
From Verif Require Import Base WireModel TypeModel TypeSpec ValueModel ValueSpec MarkModel MarkSpec CopyModel.
Import ListNotations.
Local Open Scope Z_scope.

(** ** Integers *)

(** integer type codes and what they can hold *)
Definition in_type (c : Z) (z : Z) : Prop :=
  match int_width c, uint_width c with
  | Some n, _ => signed_in n z
  | None, Some n => unsigned_in n z
  | None, None => False
  end.
Definition int_code (c : Z) : Prop := int_width c <> None \/ uint_width c <> None.
Definition type_bits (c : Z) : Z :=
  match int_width c, uint_width c with
  | Some n, _ | None, Some n => 8 * Z.of_nat n
  | None, None => 0
  end.
(** [r] is [z] modulo the width of type [c], in the range of that type *)
Definition wraps_to (c : Z) (z r : Z) : Prop := in_type c r /\ exists k, r = z + k * 2 ^ type_bits c.
(** storage of an integer field *)
Definition int_sto (c : Z) (z : Z) : sto value :=
  match int_width c with Some _ => SInt z | None => SUInt z end.
(** [p] is the integer [z], as int64_t or uint64_t *)
Definition int_src (p : src) (z : Z) : Prop :=
  (p = PInt z /\ in_type tc_Int64 z) \/ (p = PUInt z /\ in_type tc_UInt64 z).

(** Field [i] now holds [s] and is marked; nothing else changed. *)
Definition field_set (i : nat) (s : sto value) (cells cells' : list cell) : Prop :=
  length cells' = length cells /\ nth_error cells' i = Some (true, s) /\
  forall k, k <> i -> nth_error cells' k = nth_error cells k.
(** Field [i] has type code [c] and some storage of the right kind. *)
Definition field_of (nodes : list fdesc) (cells : list cell) (i : nat) (c : Z) : Prop :=
  exists d b s s0, nth_error nodes i = Some d /\ f_code d = c /\ nth_error cells i = Some (b, s) /\
    sto_init c = Some s0 /\ same_kind s0 s.

(** ** Structures *)

(** Field [i] of type [m] is a structure of type [d] (or [i] is the root). *)
Definition struct_at (m : member) (i : nat) (d : member) : Prop :=
  m_code d = tc_Struct /\ ((i = 0%nat /\ d = m) \/ exists path, field_at m path i d).
(** Field [j] is inside structure [i] and it, or a structure around it (but
    still inside [i]), is marked. *)
Definition carried (nodes : list fdesc) (cells : list cell) (i j : nat) : Prop :=
  is_inside nodes i j /\
  (marked cells j \/ exists k, is_inside nodes i k /\ marked cells k /\ is_inside nodes k j).
(** An array without elements is assigned without its element type. *)
Definition as_assigned (s : sto value) : sto value :=
  match s with
  | SArr (APod _ []) | SArr (AStr []) | SArr (AVals []) => SArr ANull
  | _ => s
  end.
(** [new] is [old] after assigning to its structure [i] the structure [si] of
    [src], both of type [d]. *)
Definition assigned (sn : list fdesc) (src : list cell) (si : nat) (d : member) (i : nat) (old new : list cell) : Prop :=
  length new = length old /\
  (* fields outside of the structure *)
  (forall k, (k < i \/ i + nfields d <= k)%nat -> nth_error new k = nth_error old k) /\
  (* the structure itself *)
  (forall b s, nth_error old i = Some (b, s) ->
     exists b', nth_error new i = Some (b', s) /\
       (b' = true <-> b = true \/ marked src si \/ exists k, is_inside sn k si /\ marked src k)) /\
  (* its fields *)
  forall j sd vs ss vo so, (1 <= j < nfields d)%nat ->
    nth_error sn (si + j) = Some sd -> nth_error src (si + j) = Some (vs, ss) -> nth_error old (i + j) = Some (vo, so) ->
    exists vn snew, nth_error new (i + j) = Some (vn, snew) /\
    if f_code sd =? tc_Struct
    then snew = so /\ (vn = true <-> vo = true \/ carried sn src si (si + j))
    else (carried sn src si (si + j) -> vn = true /\ snew = as_assigned ss) /\
         (~ carried sn src si (si + j) -> vn = vo /\ snew = so).

(** float to double and back gives the same float *)
Definition exact_widening (fp : fpu) : Prop := forall x, unsigned_in 4 x -> fp_narrow fp (fp_widen fp x) = x.
(** every type object is recognised as itself *)
Definition types_shared (same : list fdesc -> list fdesc -> bool) : Prop := forall n, same n n = true.
(** no field of the structure is a Union *)
Definition no_union (m : member) : Prop := Forall (fun d => f_code d <> tc_Union) (flatten m).
