(** What the operations of a server connection promise, said of the list of what can
    be seen ([ServerOpModel.output]), in order. *)
From Coq Require Import List Bool Arith NArith.
From Verif Require Import ServerOpModel.
Import ListNotations.

(** Each reply to an execute request of operation [i] answers an execute request which
    was accepted, not answered yet, and not cancelled since.  [waiting]: there is
    such a request now. *)
Fixpoint answered (i : nat) (waiting : bool) (l : list output) : Prop :=
  match l with
  | [] => True
  | Started j _ _ :: l' => if j =? i then waiting = false /\ answered i true l' else answered i waiting l'
  | SentExec j _ _ :: l' => if j =? i then waiting = true /\ answered i false l' else answered i waiting l'
  | Stopped j :: l' => if j =? i then answered i false l' else answered i waiting l'
  | _ :: l' => answered i waiting l'
  end.

(** something sent to the client *)
Definition sent (o : output) : bool :=
  match o with
  | SentCreate _ _ | SentDestroy _ _ | SentInit _ _ | SentExec _ _ _ | SentInfo _ _ => true
  | _ => false
  end.
(** something sent to the client about operation [i], or asked of its handler *)
Definition about (i : nat) (o : output) : bool :=
  match o with
  | SentInit j _ | SentExec j _ _ | SentInfo j _ | Started j _ _ | CancelCb j => j =? i
  | _ => false
  end.
Fixpoint after_down (l : list output) : list output :=
  match l with [] => [] | Down :: l' => l' | _ :: l' => after_down l' end.

Definition count (f : output -> bool) (l : list output) : nat := length (filter f l).
Definition is_started (i : nat) (o : output) : bool := match o with Started j _ _ => j =? i | _ => false end.
Definition is_exec_reply (i : nat) (o : output) : bool := match o with SentExec j _ _ => j =? i | _ => false end.
Definition is_close (i : nat) (o : output) : bool := match o with CloseCb j => j =? i | _ => false end.
Definition is_chan_close (c : nat) (o : output) : bool := match o with ChanCloseCb j => j =? c | _ => false end.

(** The handle used to answer is the one made for the execution which is answered:
    [n]: how many were accepted so far. *)
Fixpoint own_handle (i n : nat) (l : list output) : Prop :=
  match l with
  | [] => True
  | Started j _ _ :: l' => own_handle i (if j =? i then S n else n) l'
  | SentExec j _ h :: l' => (j = i -> h = n) /\ own_handle i n l'
  | _ :: l' => own_handle i n l'
  end.

(** An operation has ended. *)
Definition ended (s : conn) (i : nat) : Prop :=
  match nth_error (objs s) i with Some o => o_st o = Dead | None => False end.
(** An operation which ends together with its reply: a failed INIT, a GET_FIELD, or an
    execute request with the destroy bit. *)
Definition ends_with_reply (i : nat) (l : list output) : Prop :=
  In (SentInit i false) l \/ (exists ok, In (SentInfo i ok) l) \/ (exists h, In (Started i true h) l).

Fixpoint sids (l : list output) : list N :=
  match l with [] => [] | SentCreate _ (Some sid) :: l' => sid :: sids l' | _ :: l' => sids l' end.

(** The operations of a channel. *)
Definition on_chan (s : conn) (c i : nat) : Prop :=
  match nth_error (objs s) i with Some o => o_chan o = c | None => False end.
