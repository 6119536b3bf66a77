(** What a subscriber sees of the values posted. *)
From Coq Require Import ZArith List Bool.
From Verif Require Import Base BitMaskModel TypeModel TypeSpec ValueModel ValueSpec MarkModel MarkSpec CopyModel CopySpec PvReqModel
  ServerMonModel ServerMonSpec.
Import ListNotations.
Local Open Scope Z_scope.

(** Updates of one type, with its node array [nodes], for a subscriber which
    requested [mask]: testmask() and Value::assign() as the server calls them
    (src/servermon.cpp:253, 273; src/data.cpp:397-418, assign).  [fuel] is for
    the nesting of values, see CopyModel. *)
Definition has_requested (nodes : list fdesc) (mask : bmask) (u : list cell) : bool :=
  match testmask nodes u mask with Some b => b | None => false end.
Definition merge_into (fuel : nat) (fp : fpu) (same : list fdesc -> list fdesc -> bool) (nodes : list fdesc) (a b : list cell) : list cell :=
  snd (assign fuel fp same nodes a 0 (Val nodes b) 0).

(** The updates offered to a subscriber: all posts before finish(), except those
    refused by tryPost(), whether or not they have a requested field. *)
Section Offered.
  Variable U : Type.
  Variable real : U -> bool.
  Variable squash : U -> U -> U.
  Definition offers (m : mon U) (e : event U) : list U :=
    match e with
    | EPost _ (Some u) maybe force =>
        if negb (finished U m) && (negb maybe || force || (length (queue U m) <? limit U m)%nat) then [u] else []
    | _ => []
    end.
  Fixpoint offered (m : mon U) (es : list (event U)) : list U :=
    match es with
    | [] => []
    | e :: es' => offers m e ++ match step U real squash m e with Some (m', _) => offered m' es' | None => [] end
    end.
  (** values given to post() and friends *)
  Definition posted (es : list (event U)) (u : U) : Prop := exists a b, In (EPost U (Some u) a b) es.
End Offered.

(** A receiver decodes a sequence of updates into its value; see C14 for
    [updated]. *)
Inductive receives (nodes : list fdesc) (mask : bmask) : list cell -> list (list cell) -> list cell -> Prop :=
| receives_nil : forall c, receives nodes mask c [] c
| receives_cons : forall c u c1 us c2, updated nodes u (Some mask) c c1 -> receives nodes mask c1 us c2 ->
    receives nodes mask c (u :: us) c2.

(** The same contents in field [j]. *)
Definition same_field (j : nat) (a b : list cell) : Prop :=
  exists x y s, nth_error a j = Some (x, s) /\ nth_error b j = Some (y, s).
