(** Specification vocabulary for SharedPV. *)
From Coq Require Import List Bool Arith.
From Verif Require Import ServerMonModel ServerMonSpec SharedPVModel.
Import ListNotations.

Section Spec.
  Variable V : Type.
  (** values given to one subscription, and values sent to its client *)
  Fixpoint offers_of (id : nat) (l : list (log V)) : list V :=
    match l with
    | [] => []
    | LOffer _ k v :: l' => if k =? id then v :: offers_of id l' else offers_of id l'
    | _ :: l' => offers_of id l'
    end.
  Fixpoint sends_of (id : nat) (l : list (log V)) : list V :=
    match l with
    | [] => []
    | LSend _ k v :: l' => if k =? id then v :: sends_of id l' else sends_of id l'
    | _ :: l' => sends_of id l'
    end.
  (** values posted *)
  Fixpoint posts (es : list (pevent V)) : list V :=
    match es with
    | [] => []
    | PPost _ v :: es' => v :: posts es'
    | _ :: es' => posts es'
    end.
  (** no subscription had to merge an update *)
  Definition unmerged (p : pv V) : Prop := forall id m, subs V p id = Some m -> nsquash (ref V) m = 0.
  Definition no_resets (es : list (pevent V)) : Prop := forall id, ~ In (PSub V id (EStats (ref V) true)) es.
  (** no post() and no close() *)
  Definition no_change (es : list (pevent V)) : Prop := posts es = [] /\ ~ In (PClose V) es.
  (** the subscription was accepted: connect() found it alive *)
  Definition accepted_sub (p : pv V) (id : nat) : Prop := exists m, subs V p id = Some m /\ typed (ref V) m = true.

  (** what is known of one field after receiving updates: the last of them which has it counts *)
  Definition latest {T} (look : V -> option T) (us : list V) : option T :=
    fold_left (fun acc u => match look u with Some x => Some x | None => acc end) us None.

  (** a history with one subscriber left out *)
  Definition about (id : nat) (e : pevent V) : bool :=
    match e with
    | PNew _ k _ _ _ | PConnect _ k | PEnter _ k _ | PGone _ k | PSub _ k _ => k =? id
    | _ => false
    end.
  Definition without (id : nat) (es : list (pevent V)) : list (pevent V) := filter (fun e => negb (about id e)) es.
End Spec.

(** strictly alternating, beginning with the first connect *)
Fixpoint alternate (n : notice) (l : list notice) : Prop :=
  match l, n with
  | [], _ => True
  | First :: l', First => alternate Last l'
  | Last :: l', Last => alternate First l'
  | _, _ => False
  end.
(** all channels belong to one server *)
Definition one_worker (w : nat) (es : list cevent) : Prop :=
  Forall (fun e => match e with CAttach _ w' | CClosed _ w' | CCall w' => w' = w | CClose => True end) es.
