(** Specification vocabulary for StaticSource. *)
From Coq Require Import List Bool Arith.
From Verif Require Import StaticModel.
Import ListNotations.

(** The PV which a source has under the name [n] after the calls [es], the last one first: the first one added since the name
    was last removed. *)
Fixpoint held (es : list event) (n : nat) : option nat :=
  match es with
  | [] => None
  | Add m p :: r => if m =? n then match held r n with Some q => Some q | None => Some p end else held r n
  | Remove m :: r => if m =? n then None else held r n
  | _ :: r => held r n
  end.
Definition holds (es : list event) (n : nat) : option nat := held (rev es) n.
(** The PV was never added under two names. *)
Definition one_name (es : list event) (p n : nat) : Prop := forall m, In (Add m p) es -> m = n.
(** Channel [c] of name [n] is served by the PV [p]. *)
Definition connected (s : st) (c n p : nat) : Prop := In (c, (n, p)) (attached s).
Definition under_way (s : st) (p : nat) : Prop := exists c n, In (c, (n, p)) (creating s).
Definition is_open (s : st) (p : nat) : Prop := In p (opened s).
