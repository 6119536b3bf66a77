(** Model of what a server has written for one client but the client has not taken yet: ServerConn::bevRead() and bevWrite()
    (src/serverconn.cpp), maybeReply() and doReply() of its subscriptions (src/servermon.cpp), in terms of numbers of bytes.

    Simplifications.  Subscriptions are running and not pipelined; starting, stopping and pipelining are in ServerMonModel.  A
    message is its size as encoded.  The bytes read at a time, at most the read-ahead, are one batch of messages, and each
    is answered at once or not at all.  libevent calls bevWrite() when it has written some of the output buffer and what is left
    does not exceed the low water mark.  The connection is not lost.

    No proofs in this file. *)
From Coq Require Import List Bool Arith.
Import ListNotations.

(** Work handed to the worker for subscription [i]: the attempt of maybeReply(), src/servermon.cpp:83-97, and doReply()
    scheduling itself, :208-210. *)
Inductive task := TTry (i : nat) | TReply (i : nat).
(** MonitorOp::queue, the sizes of the updates in it, and ::scheduled, src/servermon.cpp:60-70. *)
Record sub := { queue : list nat; sched : bool }.
(** [tx]: length of the output buffer.  [reading]: EV_READ is enabled.  [due]: libevent will call bevWrite().  [backlog]:
    src/serverconn.h:124.  [tasks]: queue of the worker. *)
Record conn := { tx : nat; reading : bool; due : bool; backlog : list nat; tasks : list task; subs : nat -> sub }.

Definition set_tx n s := {| tx := n; reading := reading s; due := due s; backlog := backlog s; tasks := tasks s; subs := subs s |}.
Definition set_reading b s := {| tx := tx s; reading := b; due := due s; backlog := backlog s; tasks := tasks s; subs := subs s |}.
Definition set_due b s := {| tx := tx s; reading := reading s; due := b; backlog := backlog s; tasks := tasks s; subs := subs s |}.
Definition set_backlog l s := {| tx := tx s; reading := reading s; due := due s; backlog := l; tasks := tasks s; subs := subs s |}.
Definition set_tasks l s := {| tx := tx s; reading := reading s; due := due s; backlog := backlog s; tasks := l; subs := subs s |}.
Definition set_sub i x s := {| tx := tx s; reading := reading s; due := due s; backlog := backlog s; tasks := tasks s;
                               subs := fun j => if j =? i then x else subs s j |}.

(** doReply() of a running subscription, src/servermon.cpp:110-213. *)
Definition do_reply (i : nat) (s : conn) : conn :=
  match queue (subs s i) with
  | [] => set_sub i {| queue := []; sched := false |} s
  | n :: q =>
      let s1 := set_tx (tx s + n) (set_sub i {| queue := q; sched := negb (match q with [] => true | _ => false end) |} s) in
      match q with [] => s1 | _ => set_tasks (tasks s1 ++ [TReply i]) s1 end
  end.
(** maybeReply(), src/servermon.cpp:77-108. *)
Definition maybe_reply (i : nat) (s : conn) : conn :=
  if negb (sched (subs s i)) && negb (match queue (subs s i) with [] => true | _ => false end)
  then set_sub i {| queue := queue (subs s i); sched := true |} (set_tasks (tasks s ++ [TTry i]) s)
  else s.
(** doPost() of an update of size [n] into a queue of [lim], src/servermon.cpp:256-282.  A full queue has its last update merged
    with the new one; the result has some size, also called [n]. *)
Definition post (lim i n : nat) (s : conn) : conn :=
  let q := queue (subs s i) in
  maybe_reply i (set_sub i {| queue := if length q <? lim then q ++ [n] else removelast q ++ [n]; sched := sched (subs s i) |} s).
(** The loop of ServerConn::bevWrite(), src/serverconn.cpp:388-393. *)
Fixpoint flush (limit : nat) (l : list nat) (s : conn) : conn :=
  match l with
  | [] => set_backlog [] s
  | i :: r => if tx s <? limit then flush limit r (do_reply i s) else set_backlog l s
  end.

Inductive event :=
| Post (i n : nat)           (** any thread posts to subscription [i] *)
| Recv (replies : list nat)  (** bevRead(): a batch of messages with replies of these sizes *)
| Work                       (** the worker takes the next task *)
| Drain (n : nat)            (** the client takes [n] bytes *)
| Write.                     (** libevent calls bevWrite() *)

(** Low water mark, set when reading is suspended and resumed, src/serverconn.cpp:375, 398. *)
Definition low_water (limit : nat) (s : conn) : nat := if reading s then 0 else limit / 2.
(** One step; None: not possible.  [limit]: tcp_tx_limit, src/serverconn.cpp:61; [lim]: size of the queues. *)
Definition step (limit lim : nat) (s : conn) (e : event) : option conn :=
  match e with
  | Post i n => Some (post lim i n s)
  | Recv replies => (* src/serverconn.cpp:363-379 *)
      if reading s then
        let s1 := set_tx (tx s + list_sum replies) s in
        Some (if limit <=? tx s1 then set_reading false s1 else s1)
      else None
  | Work =>
      match tasks s with
      | [] => None
      | t :: r =>
          let s1 := set_tasks r s in
          Some (match t with
                | TTry i => if reading s then do_reply i s1 else set_backlog (backlog s ++ [i]) s1 (* src/servermon.cpp:91-96 *)
                | TReply i => do_reply i s1
                end)
      end
  | Drain n =>
      if (0 <? n) && (n <=? tx s) then
        let left := tx s - n in
        Some (set_due (due s || (left <=? low_water limit s)) (set_tx left s))
      else None
  | Write => (* src/serverconn.cpp:381-401 *)
      if due s then
        let s1 := flush limit (backlog s) (set_due false s) in
        Some (if tx s1 <? limit then set_reading true s1 else s1)
      else None
  end.
Fixpoint run (limit lim : nat) (s : conn) (es : list event) : option conn :=
  match es with
  | [] => Some s
  | e :: r => match step limit lim s e with Some s' => run limit lim s' r | None => None end
  end.
(** A new connection. *)
Definition fresh : conn := {| tx := 0; reading := true; due := false; backlog := []; tasks := []; subs := fun _ => {| queue := []; sched := false |} |}.
