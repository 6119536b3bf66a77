(** Specification vocabulary for marks and iteration. *)
From Coq Require Import ZArith List Bool Relation_Operators.
From Verif Require Import Base TypeModel TypeSpec ValueModel ValueSpec MarkModel.
Import ListNotations.

(** Field [k] carries a mark. *)
Definition marked (cells : list cell) (k : nat) : Prop := exists s, nth_error cells k = Some (true, s).

(** [cells'] differs from [cells] only in marks: where [P] holds the mark is
    [b], elsewhere it is as before. *)
Definition marks_changed (P : nat -> Prop) (b : bool) (cells cells' : list cell) : Prop :=
  length cells' = length cells /\
  forall k v s, nth_error cells k = Some (v, s) ->
    exists v', nth_error cells' k = Some (v', s) /\ (P k -> v' = b) /\ (~ P k -> v' = v).

(** Storage of a value: one cell per node of its type. *)
Definition storage (m : member) (nodes : list fdesc) (cells : list cell) : Prop :=
  good_type m /\ nodes = flatten m /\ length cells = length nodes.

(** ** Several values, one inside a Union of another *)

(** Top [t] was created for the field [f] = (top, position). *)
Definition held_by (h : heap) (t : nat) (f : nat * nat) : Prop :=
  exists cells, nth_error h t = Some (cells, Some f).
(** Field [f] is around top [t]: it holds it, or holds the top with the field holding it, ... *)
Inductive around (h : heap) (t : nat) : nat * nat -> Prop :=
| around_here : forall f, held_by h t f -> around h t f
| around_more : forall t' i f, held_by h t (t', i) -> around h t' f -> around h t f.
(** A value is created for a field which already exists. *)
Definition created_in_order (h : heap) : Prop :=
  forall t t' i, held_by h t (t', i) -> (t' < t)%nat.
(** As [marks_changed], for all fields of all tops. *)
Definition heap_marks_changed (P : nat * nat -> Prop) (b : bool) (h h' : heap) : Prop :=
  length h' = length h /\
  forall t cells e, nth_error h t = Some (cells, e) ->
    exists cells', nth_error h' t = Some (cells', e) /\ marks_changed (fun i => P (t, i)) b cells cells'.

(** the content of a field of a new value *)
Definition initial (d : fdesc) (s : sto value) : Prop := sto_init (f_code d) = Some s.
