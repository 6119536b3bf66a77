(** Words for what is promised of MPMCFIFO. *)
From Coq Require Import List Bool Arith.
From Verif Require Import FifoModel.
Import ListNotations.

(** The elements which a list of calls pushes, and the number of its pops. *)
Definition pushes (p : list call) : list nat := flat_map (fun c => match c with Push x => [x] | Pop => [] end) p.
Definition pops (p : list call) : nat := length (filter (fun c => match c with Pop => true | Push _ => false end) p).
(** What thread [t] has pushed and popped so far. *)
Definition by_thread (t : nat) (l : list (nat * nat)) : list nat := map snd (filter (fun e => fst e =? t) l).
(** Thread [t] has still these calls to complete. *)
Definition remains (s : st) (t : nat) (p : list call) : Prop := exists x, nth_error (threads s) t = Some x /\ calls x = p.
Definition stuck (limit : nat) (s : st) : Prop := forall t, step limit s t = None.
Definition total (f : list call -> nat) (ps : list (list call)) : nat := list_sum (map f ps).
