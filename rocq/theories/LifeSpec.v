(** Words for what is promised of starting and stopping a server. *)
From Coq Require Import List Bool Arith.
From Verif Require Import LifeModel.
Import ListNotations.

(** What a server is after calls which do not overlap. *)
Definition after1 (f : phase) (c : call) : phase := match c with Start => Running | Stop | Run => Stopped | Interrupt => f end.
Definition after (d : list call) : phase := fold_left after1 d Stopped.
(** Thread [t] has returned from all of its calls but [r], and has not begun the first of these. *)
Definition to_call (L : nat) (s : st) (t : nat) (r : list call) : Prop := nth_error (threads s) t = Some (flat_map (parts L) r).
Definition stuck (s : st) : Prop := forall t, step s (Thread t) = None.
(** Nothing of a server is to be seen: no beacon, no reply, no connection. *)
Definition silent (s : st) : Prop := forall e s', (forall t, e <> Thread t) -> step s e = Some s' -> sent s' = sent s /\ conns s' = [].
(** Parts of calls which threads have yet to make. *)
Definition left_to (l : list (list (list part))) : nat := length (concat (concat l)).
