(** Words for what is promised of SigInt. *)
From Coq Require Import List Bool Arith.
From Verif Require Import SigModel.
Import ListNotations.

Definition stuck (s : st) : Prop := forall e, e <> Signal -> step s e = None.
(** No signal handler is in progress. *)
Definition quiet (s : st) : Prop := Forall (eq Done) (hs s).
(** Whenever the destructor has waited for its thread, no signal handler is in progress. *)
Fixpoint calm (s : st) (es : list event) : Prop :=
  match es with
  | [] => True
  | e :: r => (e = User -> ph s = Joined -> quiet s) /\ match step s e with Some s' => calm s' r | None => True end
  end.
