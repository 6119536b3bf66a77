(** Model of client subscriptions: SubscriptionImpl (src/clientmon.cpp:34-464),
    Connection::handle_MONITOR() (:466-738) and MonitorBuilder::exec() (:741-836).

    The worker thread handles messages and connection events one at a time; user
    threads pop at any time.  `lock` makes each access to the queue atomic, and
    the event callback is invoked after it was released: a step which will invoke it leaves
    [calling] set, and [Callback] is the next step of the worker.

    Values are a parameter, with Value::assign().  Simplifications: counters are
    natural numbers (uint32_t in the code); decoding of the message is in
    ValueModel.v (an [Update] was decoded already); the free list of Values (:509-548) and
    statistics but nCliSquash are left out; the user's onInit function only returns or throws.

    No proofs in this file. *)
From Coq Require Import List Bool Arith.
Import ListNotations.

(** ackAt of exec(), src/clientmon.cpp:766-798.  [percent]: ackAny was a text "n%" with whole n
    (a double in the code; the conversion to uint32_t is not defined for 2^32 or more); [count]: the number
    ackAny converts to. *)
Definition ack_threshold (queue_size : nat) (percent count : option nat) : nat :=
  let a := match percent with Some p => if (0 <? p) && (p <=? 100) then p * queue_size else 0 | None => 0 end in
  let b := if a =? 0 then match count with Some n => n | None => 0 end else a in
  let c := if b =? 0 then queue_size / 2 else b in
  Nat.max 1 (Nat.min c queue_size).

Section Mon.
  Variable V : Type.
  (** Value::assign() *)
  Variable assign : V -> V -> V.

  (** const after exec(), src/clientmon.cpp:41-49; [ack_at] as computed at :766-798 *)
  Record config := { pipeline : bool; autostart : bool; mask_conn : bool; mask_discon : bool; queue_size : nat; ack_at : nat }.

  (** [Failed]: an exception of Channel::build() or of onInit *)
  Inductive exc := Connected | Disconnect | Remote | Finished | Failed.
  (** struct Entry, src/clientmon.cpp:25-31 *)
  Inductive entry := Data (v : V) | Exc (x : exc).
  (** state_t, :54-60.  [Unbuilt]: before the action of exec() at :817 ran; [Dead]: it
      failed, and the subscription is in no channel. *)
  Inductive state := Unbuilt | Dead | Connecting | Creating | Idle | Running | Done.

  (** SubscriptionImpl.  [timer]: ackTick is scheduled; [cancelled]: `event` was taken by
      cancel(); [known]: in opByIOID of the connection. *)
  Record sub := {
    st : state; queue : list entry; window : nat; unack : nat; need_notify : bool; ack_pending : bool; timer : bool;
    calling : bool; cancelled : bool; known : bool; n_squash : nat
  }.
  Definition new_sub : sub :=
    {| st := Unbuilt; queue := []; window := 0; unack := 0; need_notify := true; ack_pending := false; timer := false;
       calling := false; cancelled := false; known := false; n_squash := 0 |}.

  Inductive out :=
  | SentInit (q : option nat)     (* INIT, with the window size when pipelining *)
  | SentStart | SentStop | SentAck (n : nat) | SentDestroy
  | Callback                      (* the event callback is invoked *)
  | Popped (e : entry)            (* returned or thrown to the user *)
  | PopEmpty                      (* an empty Value was returned to the user *)
  | Batch (more : bool)           (* doPop() returned *)
  | HangUp.                        (* the connection is ended by the client *)

  Inductive event :=
  | Build (ok : bool)             (* the action dispatched by exec() *)
  | Create                        (* createOp(): the channel is connected *)
  | Lost                          (* disconnected() *)
  | InitReply (ok throws : bool)  (* reply to INIT; [throws]: onInit threw *)
  | Update (final ok : bool) (data : option V)
  | Tick                          (* tickAck() *)
  | Pause (p : bool)
  | Cancel
  | Call                          (* doNotify() *)
  | Pop
  | PopMany (limit : nat).

  Variable g : config.

  Definition set_st (x : state) (s : sub) : sub :=
    {| st := x; queue := queue s; window := window s; unack := unack s; need_notify := need_notify s; ack_pending := ack_pending s; timer := timer s;
       calling := calling s; cancelled := cancelled s; known := known s; n_squash := n_squash s |}.
  Definition set_queue (q : list entry) (s : sub) : sub :=
    {| st := st s; queue := q; window := window s; unack := unack s; need_notify := need_notify s; ack_pending := ack_pending s; timer := timer s;
       calling := calling s; cancelled := cancelled s; known := known s; n_squash := n_squash s |}.
  Definition set_window (w : nat) (s : sub) : sub :=
    {| st := st s; queue := queue s; window := w; unack := unack s; need_notify := need_notify s; ack_pending := ack_pending s; timer := timer s;
       calling := calling s; cancelled := cancelled s; known := known s; n_squash := n_squash s |}.
  Definition set_known (k : bool) (s : sub) : sub :=
    {| st := st s; queue := queue s; window := window s; unack := unack s; need_notify := need_notify s; ack_pending := ack_pending s; timer := timer s;
       calling := calling s; cancelled := cancelled s; known := k; n_squash := n_squash s |}.
  Definition set_timer (t : bool) (s : sub) : sub :=
    {| st := st s; queue := queue s; window := window s; unack := unack s; need_notify := need_notify s; ack_pending := ack_pending s; timer := t;
       calling := calling s; cancelled := cancelled s; known := known s; n_squash := n_squash s |}.
  Definition set_cancelled (s : sub) : sub :=
    {| st := st s; queue := queue s; window := window s; unack := unack s; need_notify := need_notify s; ack_pending := ack_pending s; timer := timer s;
       calling := calling s; cancelled := true; known := known s; n_squash := n_squash s |}.
  Definition squashed (s : sub) : sub :=
    {| st := st s; queue := queue s; window := window s; unack := unack s; need_notify := need_notify s; ack_pending := ack_pending s; timer := timer s;
       calling := calling s; cancelled := cancelled s; known := known s; n_squash := S (n_squash s) |}.
  (** `notify && wantToNotify()`, src/clientmon.cpp:93-102, and doNotify() to come *)
  Definition want_notify (notify : bool) (s : sub) : sub :=
    if notify then
      {| st := st s; queue := queue s; window := window s; unack := unack s; need_notify := false; ack_pending := ack_pending s; timer := timer s;
         calling := need_notify s; cancelled := cancelled s; known := known s; n_squash := n_squash s |}
    else s.
  Definition empty (s : sub) : bool := match queue s with [] => true | _ => false end.
  Definition push (e : entry) (s : sub) : sub := set_queue (queue s ++ [e]) s.

  (** the queue and counters of _pop() after an entry was taken, src/clientmon.cpp:164-182 *)
  Definition took (q : list entry) (s : sub) : sub :=
    if pipeline g then
      let u := S (unack s) in
      let sched := negb (ack_pending s) && (ack_at g <=? u) in
      {| st := st s; queue := q; window := window s; unack := u; need_notify := need_notify s;
         ack_pending := ack_pending s || sched; timer := timer s || sched;
         calling := calling s; cancelled := cancelled s; known := known s; n_squash := n_squash s |}
    else set_queue q s.
  Definition saw_empty (s : sub) : sub :=
    {| st := st s; queue := queue s; window := window s; unack := unack s; need_notify := true; ack_pending := ack_pending s; timer := timer s;
       calling := calling s; cancelled := cancelled s; known := known s; n_squash := n_squash s |}.
  (** pop(), src/clientmon.cpp:159-213 *)
  Definition pop (s : sub) : sub * list out :=
    match queue s with
    | e :: q => (took q s, [Popped e])
    | [] => (saw_empty s, [PopEmpty])
    end.
  (** the loop of doPop(), src/clientmon.cpp:227-234.  [n]: limit - out.size();
      [first]: out.empty(), only then an exception is taken, and leaves doPop(). *)
  Fixpoint pop_loop (n : nat) (first : bool) (s : sub) : sub * list out :=
    match n with
    | O => (s, [Batch (negb (need_notify s))])
    | S n' =>
      match queue s with
      | [] => let s' := saw_empty s in (s', [PopEmpty; Batch (negb (need_notify s'))])
      | Exc x :: q => if first then (took q s, [Popped (Exc x)]) else (s, [Batch (negb (need_notify s))])
      | Data v :: q => let '(s', o) := pop_loop n' false (took q s) in (s', Popped (Data v) :: o)
      end
    end.
  (** doPop(), :215-237 *)
  Definition pop_many (limit : nat) (s : sub) : sub * list out := pop_loop (if limit =? 0 then queue_size g else limit) true s.

  (** pause(), src/clientmon.cpp:118-145 *)
  Definition pause (p : bool) (s : sub) : sub * list out :=
    match st s, p with
    | Idle, false => (set_st Running s, [SentStart])
    | Running, true => (set_st Idle s, [SentStop])
    | _, _ => (s, [])
    end.
  (** _cancel(), src/clientmon.cpp:292-315, and cancel() *)
  Definition cancel (s : sub) : sub * list out :=
    let '(s1, o) :=
      match st s with
      | Idle | Running => (set_known false (if pipeline g then set_timer false s else s), [SentDestroy])
      | _ => (s, [])
      end in
    (set_cancelled (set_st (match st s with Dead => Dead | _ => Done end) s1), o).

  (** createOp(), src/clientmon.cpp:322-374; Channel::createOperations() enters it in opByIOID *)
  Definition create (s : sub) : sub * list out :=
    match st s with
    | Connecting =>
      let s1 := set_known true (set_st Creating s) in
      let s2 := if mask_conn g then s1 else push (Exc Connected) (want_notify (empty s1) s1) in
      let s3 := if pipeline g then set_window (queue_size g) s2 else s2 in
      (s3, [SentInit (if pipeline g then Some (queue_size g) else None)])
    | _ => (s, [])
    end.
  (** disconnected(), src/clientmon.cpp:376-413; the connection forgets its operations *)
  Definition lost (s : sub) : sub * list out :=
    let s0 := set_known false s in
    match st s with
    | Creating | Idle | Running =>
      let s1 := if mask_discon g then s0 else push (Exc Disconnect) (want_notify (empty s0) s0) in
      (set_st Connecting s1, [])
    | _ => (s0, [])
    end.
  (** tickAck(), src/clientmon.cpp:415-450 *)
  Definition tick (s : sub) : sub * list out :=
    let act := match st s with Idle | Running => pipeline g && negb (unack s =? 0) | _ => false end in
    ({| st := st s; queue := queue s; window := (if act then window s + unack s else window s); unack := (if act then 0 else unack s);
        need_notify := need_notify s; ack_pending := false; timer := false;
        calling := calling s; cancelled := cancelled s; known := known s; n_squash := n_squash s |},
     if act then [SentAck (unack s)] else []).

  (** the operation ended, src/clientmon.cpp:723-734 *)
  Definition finish (final : bool) (s : sub) : sub * list out :=
    (set_known false (if pipeline g then set_timer false (set_st Done s) else set_st Done s), if final then [] else [SentDestroy]).

  (** handle_MONITOR(), with init set *)
  Definition init_reply (ok throws : bool) (s : sub) : sub * list out :=
    if negb (known s) then (s, [])                                     (* :491-499 *)
    else match st s with
    | Creating =>
      if negb ok then finish false (want_notify true (push (Exc Remote) (set_st Done s)))          (* :610-612, :649-655 *)
      else if throws then finish false (set_st Done s)                                             (* :621-630, :657-661: the exception is dropped *)
      else if autostart g then pause false (set_st Idle s)                                         (* :632-633 *)
      else (set_st Idle s, [])
    | _ => (s, [HangUp])                                                (* :594, :599-604 *)
    end.
  (** handle_MONITOR(), for an update *)
  Definition update (final ok : bool) (data : option V) (s : sub) : sub * list out :=
    if negb (known s) then (s, [])
    else match st s with
    | Idle | Running =>
      let u := if ok then match data with Some v => Some (Data v) | None => None end else Some (Exc Remote) in
      let s1 := if pipeline g then set_window (pred (window s)) s else s in                        (* :665-677 *)
      let was_empty := empty s1 in                                                                 (* :679 *)
      let s2 :=
        match u, rev (queue s1) with
        | Some (Data v), Data l :: r =>
          if (queue_size g <=? length (queue s1)) && negb (pipeline g)
          then squashed (set_queue (rev r ++ [Data (assign l v)]) s1)                              (* :682-688 *)
          else push (Data v) s1
        | Some e, _ => push e s1                                                                   (* :690-697 *)
        | None, _ => s1
        end in
      let s3 := if final then push (Exc Finished) s2 else s2 in                                    (* :699-705 *)
      let s4 := want_notify (was_empty && negb (empty s3)) s3 in                                   (* :707-711, :717-718 *)
      if final || negb ok then finish final s4 else (s4, [])                                       (* :723 *)
    | _ => (s, [HangUp])
    end.

  (** doNotify(), src/clientmon.cpp:106-116 *)
  Definition call (s : sub) : sub * list out :=
    ({| st := st s; queue := queue s; window := window s; unack := unack s; need_notify := need_notify s; ack_pending := ack_pending s; timer := timer s;
        calling := false; cancelled := cancelled s; known := known s; n_squash := n_squash s |},
     if cancelled s then [] else [Callback]).

  (** the action of exec(), src/clientmon.cpp:817-832 *)
  Definition build (ok : bool) (s : sub) : sub * list out :=
    match st s with
    | Unbuilt =>
      if ok then (set_st Connecting s, [])
      else
        let s1 := push (Exc Failed) (set_st Dead s) in
        ({| st := st s1; queue := queue s1; window := window s1; unack := unack s1; need_notify := need_notify s1; ack_pending := ack_pending s1; timer := timer s1;
            calling := true; cancelled := cancelled s1; known := known s1; n_squash := n_squash s1 |}, [])
    | _ => (s, [])
    end.

  (** The worker does nothing else before a callback it is about to invoke; tickAck() needs a timer. *)
  Definition step (s : sub) (e : event) : sub * list out :=
    match e with
    | Pop => pop s
    | PopMany n => pop_many n s
    | Call => if calling s then call s else (s, [])
    | _ =>
      if calling s then (s, [])
      else match e with
      | Build ok => build ok s
      | Create => create s
      | Lost => lost s
      | InitReply ok t => init_reply ok t s
      | Update f ok d => update f ok d s
      | Tick => if timer s then tick s else (s, [])
      | Pause p => pause p s
      | Cancel => cancel s
      | _ => (s, [])
      end
    end.
  Fixpoint run (s : sub) (es : list event) : sub * list out :=
    match es with
    | [] => (s, [])
    | e :: es' => let '(s1, o1) := step s e in let '(s2, o2) := run s1 es' in (s2, o1 ++ o2)
    end.
End Mon.
