(** What a client request selects. *)
From Coq Require Import String ZArith List Bool.
From Verif Require Import Base BitMaskModel BitMaskSpec TypeModel TypeSpec TextModel ValueModel ValueSpec MarkSpec.
Import ListNotations.
Local Open Scope Z_scope.

(** [asks q rt]: the request (of type) [q] has a list of fields, of type [rt]. *)
Definition asks (q rt : member) : Prop := exists i, field_at q [bs "field"] i rt.

(** The request names [path].  Each field is named by a Struct; a Struct without
    members asks for all of the field named. *)
Definition names (rt : member) (path : list str) (whole : bool) : Prop :=
  exists i r, field_at rt path i r /\ m_code r = tc_Struct /\ (whole = true <-> m_children r = []).

(** Field [k] of type [m] is the one named by some path of the request, or lies
    inside one which is named as a whole. *)
Definition chosen (m rt : member) (k : nat) : Prop :=
  exists path whole i d, names rt path whole /\ field_at m path i d /\
    (k = i \/ whole = true /\ is_inside (flatten m) i k).

(** the mask has exactly the bits in P (and is well formed) *)
Definition mask_is (m : bmask) (n : nat) (P : nat -> Prop) : Prop :=
  bm_wf m /\ bm_clean m /\ bm_size m = Z.of_nat n /\ forall k, mbit m (Z.of_nat k) = true <-> P k.
