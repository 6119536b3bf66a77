(** Specification vocabulary for server side subscriptions. *)
From Coq Require Import List Bool Arith.
From Verif Require Import ServerMonModel.
Import ListNotations.

Section Spec.
  Variable U : Type.
  Variable real : U -> bool.
  Variable squash : U -> U -> U.
  Notation mon := (mon U).
  Notation event := (event U).
  Notation output := (output U).

  (** updates in the queue; updates sent to the client *)
  Fixpoint pending_of (q : list (option U)) : list U :=
    match q with [] => [] | Some u :: q' => u :: pending_of q' | None :: q' => pending_of q' end.
  Definition pending (m : mon) : list U := pending_of (queue U m).
  Fixpoint sent (o : list output) : list U :=
    match o with [] => [] | OUpdate _ u :: o' => u :: sent o' | _ :: o' => sent o' end.

  (** The updates posted which must reach the client: those with a requested
      field, before finish(), and which are not a tryPost() into a full queue. *)
  Definition takes (m : mon) (e : event) : list U :=
    match e with
    | EPost _ (Some u) maybe force =>
        if real u && negb (finished U m) && (negb maybe || force || (length (queue U m) <? limit U m)) then [u] else []
    | _ => []
    end.
  Fixpoint accepted (m : mon) (es : list event) : list U :=
    match es with
    | [] => []
    | e :: es' =>
        takes m e ++ match step U real squash m e with Some (m', _) => accepted m' es' | None => [] end
    end.

  (** several updates merged into one, oldest first *)
  Definition merged (g : list U) (u : U) : Prop :=
    match g with [] => False | a :: r => u = fold_left squash r a end.

  (** [m] is reached by [es] from a new subscription, with outputs [o] *)
  Definition reached (nack : nat) (pipe : bool) (qsize : option nat) (es : list event) (m : mon) (o : list output) : Prop :=
    run U real squash (create U nack pipe qsize) es = Some (m, o).

  (** nothing left to do for the server *)
  Definition quiescent (m : mon) : Prop :=
    tasks U m = [] /\ backlog U m = [] /\ mid U m = false /\ alive U m = true.

  (** window granted by the acknowledgements in the messages *)
  Fixpoint acks (es : list event) : nat :=
    match es with
    | [] => 0
    | EMsg _ (Some n) _ _ :: es' => n + acks es'
    | _ :: es' => acks es'
    end.
  Fixpoint stops (es : list event) : nat :=
    match es with
    | [] => 0
    | EMsg _ _ (Some false) _ :: es' => S (stops es')
    | _ :: es' => stops es'
    end.
  Definition no_finish (es : list event) : Prop := forall a b, ~ In (EPost U None a b) es.
  Definition no_force (es : list event) : Prop := forall u a, ~ In (EPost U (Some u) a true) es.
  Definition no_reset (es : list event) : Prop := ~ In (EStats U true) es.
  (** acknowledgements only together with a start *)
  Definition no_bare_ack (es : list event) : Prop := forall n r d, In (EMsg U (Some n) r d) es -> r = Some true.
End Spec.
