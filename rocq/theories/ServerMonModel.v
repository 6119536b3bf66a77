(** Model of a subscription on the server, MonitorOp and ServerMonitorControl
    (src/servermon.cpp).

    Everything that happens to one subscription is a step of a state machine.
    Each step is atomic in the code: doPost() and doReply() hold MonitorOp::lock,
    and all else is done by the one worker thread of the server.  Posts come
    from any thread at any time.

    Simplifications.  Counters are unbounded naturals (size_t in the code; the
    window would need 2^32 acknowledgements to overflow).  A closed connection
    and the following cleanup() of its operations are one step.  Posting a Value
    of another type, which throws before it changes anything
    (src/servermon.cpp:249-250), is no step.  The Server object outlives the
    subscription (server.lock() succeeds).

    No proofs in this file. *)
From Coq Require Import List Bool Arith.
Import ListNotations.

(** ServerOp::state_t, src/serverconn.h:38-46 *)
Inductive opstate := Creating | Idle | Executing | Dead.
Definition state_eqb (a b : opstate) : bool :=
  match a, b with
  | Creating, Creating | Idle, Idle | Executing, Executing | Dead, Dead => true
  | _, _ => false
  end.

(** Work handed to the worker thread for this subscription:
    [TTry] src/servermon.cpp:83-97 (maybeReply), [TReply] :208-210, [TLow]
    :190-199, [THigh] :612-622, [TClean] :655-657, [TError] :415-422 *)
Inductive task := TTry | TReply | TLow | THigh | TClean | TError.

Section Monitor.
  (** a Value posted; [real] is testmask(val, pvMask) (src/servermon.cpp:253),
      [squash a b] is [a] after a.assign(b) (:273) *)
  Variable U : Type.
  Variable real : U -> bool.
  Variable squash : U -> U -> U.

  (** what can be seen from outside *)
  Inductive output :=
  | OInit (ok : bool)    (** reply to INIT, :153-160 *)
  | OUpdate (u : U)      (** subcmd 0 with an update, :164-167 *)
  | OFinish              (** subcmd 0x10 with a Status, :139-141, 170 *)
  | OGarbled             (** subcmd 0 with a Status: :133-141 skipped, :170 taken *)
  | OEmpty               (** subcmd 0 without a body: :162 not taken *)
  | OStart (b : bool)    (** onStart(b) *)
  | OLow                 (** onLowMark() *)
  | OHigh                (** onHighMark() *)
  | OReturn (b : bool)   (** value returned by post() *)
  | OAssert.             (** an assert() failed *)

  (** MonitorOp, src/servermon.cpp:44-70, with: [tasks], the worker's queue
      (only what is for this subscription); [backlog] of the connection
      (src/serverconn.h), [reading] whether EV_READ is enabled; [alive], whether
      conn->connection() is non-null; [mapped], whether the connection's
      opByIOID has it; [mid], whether the worker is in the middle of :632-643. *)
  Record mon := {
    st : opstate; scheduled : bool; pipeline : bool; finished : bool;
    window : nat; limit : nat; low : nat; high : nat; ackat : nat;
    maxqueue : nat; nsquash : nat;
    queue : list (option U);  (** None: the empty Value put by finish() *)
    lowpend : bool; highpend : bool;
    onlow : bool; onhigh : bool; onstart : bool;   (** callback installed *)
    typed : bool;
    tasks : list task; backlog : list task; reading : bool;
    alive : bool; mapped : bool; mid : bool
  }.

  Definition set_st x m := {| st := x; scheduled := scheduled m; pipeline := pipeline m; finished := finished m; window := window m; limit := limit m; low := low m; high := high m; ackat := ackat m; maxqueue := maxqueue m; nsquash := nsquash m; queue := queue m; lowpend := lowpend m; highpend := highpend m; onlow := onlow m; onhigh := onhigh m; onstart := onstart m; typed := typed m; tasks := tasks m; backlog := backlog m; reading := reading m; alive := alive m; mapped := mapped m; mid := mid m |}.
  Definition set_scheduled x m := {| st := st m; scheduled := x; pipeline := pipeline m; finished := finished m; window := window m; limit := limit m; low := low m; high := high m; ackat := ackat m; maxqueue := maxqueue m; nsquash := nsquash m; queue := queue m; lowpend := lowpend m; highpend := highpend m; onlow := onlow m; onhigh := onhigh m; onstart := onstart m; typed := typed m; tasks := tasks m; backlog := backlog m; reading := reading m; alive := alive m; mapped := mapped m; mid := mid m |}.
  Definition set_window x m := {| st := st m; scheduled := scheduled m; pipeline := pipeline m; finished := finished m; window := x; limit := limit m; low := low m; high := high m; ackat := ackat m; maxqueue := maxqueue m; nsquash := nsquash m; queue := queue m; lowpend := lowpend m; highpend := highpend m; onlow := onlow m; onhigh := onhigh m; onstart := onstart m; typed := typed m; tasks := tasks m; backlog := backlog m; reading := reading m; alive := alive m; mapped := mapped m; mid := mid m |}.
  Definition set_queue fin mq ns q m := {| st := st m; scheduled := scheduled m; pipeline := pipeline m; finished := fin; window := window m; limit := limit m; low := low m; high := high m; ackat := ackat m; maxqueue := mq; nsquash := ns; queue := q; lowpend := lowpend m; highpend := highpend m; onlow := onlow m; onhigh := onhigh m; onstart := onstart m; typed := typed m; tasks := tasks m; backlog := backlog m; reading := reading m; alive := alive m; mapped := mapped m; mid := mid m |}.
  Definition set_pend lo hi m := {| st := st m; scheduled := scheduled m; pipeline := pipeline m; finished := finished m; window := window m; limit := limit m; low := low m; high := high m; ackat := ackat m; maxqueue := maxqueue m; nsquash := nsquash m; queue := queue m; lowpend := lo; highpend := hi; onlow := onlow m; onhigh := onhigh m; onstart := onstart m; typed := typed m; tasks := tasks m; backlog := backlog m; reading := reading m; alive := alive m; mapped := mapped m; mid := mid m |}.
  Definition set_fns lo hi s m := {| st := st m; scheduled := scheduled m; pipeline := pipeline m; finished := finished m; window := window m; limit := limit m; low := low m; high := high m; ackat := ackat m; maxqueue := maxqueue m; nsquash := nsquash m; queue := queue m; lowpend := lowpend m; highpend := highpend m; onlow := lo; onhigh := hi; onstart := s; typed := typed m; tasks := tasks m; backlog := backlog m; reading := reading m; alive := alive m; mapped := mapped m; mid := mid m |}.
  Definition set_marks lo hi m := {| st := st m; scheduled := scheduled m; pipeline := pipeline m; finished := finished m; window := window m; limit := limit m; low := lo; high := hi; ackat := ackat m; maxqueue := maxqueue m; nsquash := nsquash m; queue := queue m; lowpend := lowpend m; highpend := highpend m; onlow := onlow m; onhigh := onhigh m; onstart := onstart m; typed := typed m; tasks := tasks m; backlog := backlog m; reading := reading m; alive := alive m; mapped := mapped m; mid := mid m |}.
  Definition set_typed x m := {| st := st m; scheduled := scheduled m; pipeline := pipeline m; finished := finished m; window := window m; limit := limit m; low := low m; high := high m; ackat := ackat m; maxqueue := maxqueue m; nsquash := nsquash m; queue := queue m; lowpend := lowpend m; highpend := highpend m; onlow := onlow m; onhigh := onhigh m; onstart := onstart m; typed := x; tasks := tasks m; backlog := backlog m; reading := reading m; alive := alive m; mapped := mapped m; mid := mid m |}.
  Definition set_work t b m := {| st := st m; scheduled := scheduled m; pipeline := pipeline m; finished := finished m; window := window m; limit := limit m; low := low m; high := high m; ackat := ackat m; maxqueue := maxqueue m; nsquash := nsquash m; queue := queue m; lowpend := lowpend m; highpend := highpend m; onlow := onlow m; onhigh := onhigh m; onstart := onstart m; typed := typed m; tasks := t; backlog := b; reading := reading m; alive := alive m; mapped := mapped m; mid := mid m |}.
  Definition set_conn r a p d m := {| st := st m; scheduled := scheduled m; pipeline := pipeline m; finished := finished m; window := window m; limit := limit m; low := low m; high := high m; ackat := ackat m; maxqueue := maxqueue m; nsquash := nsquash m; queue := queue m; lowpend := lowpend m; highpend := highpend m; onlow := onlow m; onhigh := onhigh m; onstart := onstart m; typed := typed m; tasks := tasks m; backlog := backlog m; reading := r; alive := a; mapped := p; mid := d |}.

  Definition dispatch (t : task) (m : mon) : mon := set_work (tasks m ++ [t]) (backlog m) m.
  Definition nonempty {A} (l : list A) : bool := match l with [] => false | _ => true end.

  (** maybeReply(), src/servermon.cpp:77-108 *)
  Definition maybe_reply (m : mon) : mon :=
    if negb (scheduled m) && state_eqb (st m) Executing && nonempty (queue m)
       && (negb (pipeline m) || negb (window m =? 0))
    then set_scheduled true (dispatch TTry m)
    else m.

  (** ServerOp::cleanup(), src/serverconn.cpp:481-514, with onCancel of the
      constructor (src/servermon.cpp:34-40), and MonitorOp::cleanup(), :215-222.
      The notification onClose is not modelled here. *)
  Definition cleanup (m : mon) : mon * list output :=
    let '(m1, o) :=
      if state_eqb (st m) Dead then (m, [])
      else (set_conn (reading m) (alive m) false (mid m) (set_st Dead m),
            if state_eqb (st m) Executing && onstart m then [OStart false] else []) in
    (set_fns false false false m1, o).

  (** doReply(), :184-201 *)
  Definition use_window (m : mon) : mon :=
    if state_eqb (st m) Executing && pipeline m && negb (window m =? 0) then
      let m := set_window (window m - 1) m in
      if negb (lowpend m) && (window m <=? low m) && onlow m
      then dispatch TLow (set_pend true (highpend m) m)
      else m
    else m.
  (** doReply(), :203-212 *)
  Definition again (m : mon) : mon :=
    if state_eqb (st m) Executing && nonempty (queue m)
       && (negb (pipeline m) || negb (window m =? 0) || finished m)
    then set_scheduled true (dispatch TReply m)
    else m.
  (** doReply() from :147 on: the message [sent] goes out, leaving [q] queued *)
  Definition reply_rest (m0 : mon) (sent : output) (q : list (option U)) : mon * list output :=
    let m := set_queue (finished m0) (maxqueue m0) (nsquash m0) q m0 in
    if state_eqb (st m) Dead then
      let '(m1, o) := cleanup m in (m1, sent :: o)
    else (again (use_window m), [sent]).
  (** doReply(), src/servermon.cpp:110-213 *)
  Definition do_reply (m0 : mon) : mon * list output :=
    if negb (alive m0) then (m0, [])
    else
      let m := set_scheduled false m0 in
      match st m with
      | Dead => (m, [])
      | Creating => reply_rest (set_st (if typed m then Idle else Dead) m) (OInit (typed m)) (queue m)
      | Executing =>
          match queue m with
          | [] => (m, [])
          | e :: q =>
              if pipeline m && (window m =? 0) && negb (finished m) then (m, [])
              else match e with
                   | None => reply_rest (set_st Dead m) OFinish q
                   | Some u => reply_rest m (OUpdate u) q
                   end
          end
      | Idle =>
          match queue m with
          | [] => reply_rest m OEmpty []
          | None :: q => reply_rest m OGarbled q
          | Some u :: q => reply_rest m (OUpdate u) q
          end
      end.

  Definition lastn {A} (l : list A) : option (list A * A) :=
    match rev l with [] => None | x :: r => Some (rev r, x) end.

  (** ServerMonitorControl::doPost(), src/servermon.cpp:243-285 *)
  Definition do_post (m : mon) (val : option U) (maybe force : bool) : mon * list output :=
    let ok := match val with Some u => real u | None => false end in
    let novalue := match val with None => true | _ => false end in
    if finished m then (m, [OReturn false])
    else
      let '(m1, o) :=
        if ok || novalue then
          let '(m2, o) :=
            if (length (queue m) <? limit m) || force || novalue then
              let q := queue m ++ [val] in
              (set_queue novalue (if maxqueue m <? length q then length q else maxqueue m) (nsquash m) q m, [])
            else if negb maybe then
              match lastn (queue m), val with
              | Some (q, Some b), Some u => (set_queue (finished m) (maxqueue m) (S (nsquash m)) (q ++ [Some (squash b u)]) m, [])
              | _, _ => (m, [OAssert])
              end
            else (m, []) in
          (maybe_reply m2, o)
        else (m, []) in
      (m1, o ++ [OReturn (length (queue m1) <? limit m1)]).

  (** a task on the worker *)
  Definition run_task (t : task) (m : mon) : mon * list output :=
    match t with
    | TTry =>
        if negb (alive m) then (m, [])
        else if reading m then do_reply m
        else (set_work (tasks m) (backlog m ++ [TReply]) m, [])
    | TReply => do_reply m
    | TLow => (set_pend false (highpend m) m, if onlow m then [OLow] else [])
    | THigh => (set_pend (lowpend m) false m, if onhigh m && negb (finished m) then [OHigh] else [])
    | TClean => cleanup m
    | TError => if state_eqb (st m) Creating then do_reply m else (m, [])
    end.

  (** ServerMonitorControl::stats(), src/servermon.cpp:287-307.
      MonitorStat: (running, finished, pipeline, nQueue, maxQueue, limitQueue,
      window, nSquash).  The last is never written: 0 as constructed. *)
  Definition stats (m : mon) : bool * bool * bool * nat * nat * nat * nat * nat :=
    (state_eqb (st m) Executing, finished m, pipeline m, nsquash m, maxqueue m, limit m, window m, 0).

  Inductive event :=
  | EPost (val : option U) (maybe force : bool)   (** post, tryPost, forcePost, finish; any thread *)
  | EStats (reset : bool)                         (** any thread *)
  | EConnect                                      (** MonitorSetupOp::connect(), :380-406 *)
  | EError                                        (** MonitorSetupOp::error() or destruction, :407-423 *)
  | EMsg (ack : option nat) (run : option bool) (destroy : bool)  (** a message, not INIT, :552-664 *)
  | EMsgEnd (destroy : bool)                      (** second part of a start or stop message *)
  | EMarks (lo hi : nat)                          (** setWatermarks(), :309-326 *)
  | ECallbacks (lo hi s : bool)                   (** onLowMark() etc., :327-356 *)
  | ETask                                         (** the worker takes the next task *)
  | EBacklog                                      (** bevWrite() runs one of the backlog, src/serverconn.cpp:388-393 *)
  | EReading (b : bool)                           (** bevRead(), bevWrite(): suspend, resume, :372-375, 397 *)
  | EClose.                                       (** connection lost *)

  (** second half of the handler, src/servermon.cpp:646-663 *)
  Definition msg_tail (destroy : bool) (m : mon) : mon :=
    if destroy then dispatch TClean (set_conn (reading m) (alive m) false (mid m) m) else m.

  (** one step; None: not possible in this state *)
  Definition step (m : mon) (e : event) : option (mon * list output) :=
    match e with
    | EPost val maybe force => if typed m then Some (do_post m val maybe force) else None
    | EStats reset =>
        if typed m
        then Some ((if reset then set_queue (finished m) 0 0 (queue m) m else m), [])
        else None
    | EMsgEnd destroy =>
        if mid m then Some (msg_tail destroy (maybe_reply (set_conn (reading m) (alive m) (mapped m) false m)), []) else None
    (* from any thread through call(), also by onStart() itself *)
    | EMarks lo hi =>
        if hi <? lo then None else Some (set_marks (min lo (ackat m - 1)) (min hi (ackat m - 1)) m, [])
    | ECallbacks lo hi s => if typed m then Some (set_fns lo hi s m, []) else None
    | _ =>
        if mid m then None  (* the worker is busy *)
        else
          match e with
          | EConnect =>
              if state_eqb (st m) Creating then Some (do_reply (set_typed true m)) else None
          | EError => Some (dispatch TError m, [])
          | EMsg ack run destroy =>
              if negb (alive m) || negb (mapped m) || negb (reading m) then None
              else
                match st m with
                | Dead => Some (m, [])
                | Creating => let '(m', o) := cleanup (set_conn (reading m) false (mapped m) (mid m) m) in Some (m', o)
                | _ =>
                    let m1 :=
                      match ack with
                      | Some n =>
                          if pipeline m then
                            let m := set_window (window m + n) m in
                            if negb (highpend m) && (high m <? window m) && onhigh m && negb (finished m)
                            then dispatch THigh (set_pend (lowpend m) true m) else m
                          else m
                      | None => m
                      end in
                    match run with
                    | Some b =>
                        Some (set_conn (reading m1) (alive m1) (mapped m1) true (set_st (if b then Executing else Idle) m1),
                              if onstart m1 then [OStart b] else [])
                    | None => Some (msg_tail destroy m1, [])
                    end
                end
          | ETask =>
              match tasks m with
              | [] => None
              | t :: ts => Some (run_task t (set_work ts (backlog m) m))
              end
          | EBacklog =>
              match backlog m with
              | [] => None
              | t :: b => if alive m then Some (run_task t (set_work (tasks m) b m)) else None
              end
          | EReading b => Some (set_conn b (alive m) (mapped m) (mid m) m, [])
          | EClose => let '(m', o) := cleanup (set_conn (reading m) false (mapped m) (mid m) m) in Some (m', o)
          | _ => None
          end
    end.

  (** A new subscription, src/servermon.cpp:493-540, from the INIT message:
      [nack] the window granted (0 if absent), [pipe], [qsize], [ackany] (the
      number asked for after conversion; None: absent) of the pvRequest.
      Simplification: ackAny as a percentage is not modelled; it only bounds
      the water marks. *)
  Definition create (nack : nat) (pipe : bool) (qsize : option nat) : mon :=
    let l0 := match qsize with Some n => n | None => 4 end in
    let l1 := if l0 <? nack then nack else l0 in
    let l2 := if l1 =? 0 then 1 else l1 in
    {| st := Creating; scheduled := false; pipeline := pipe; finished := false;
       window := nack; limit := l2; low := 0; high := 0; ackat := 1;
       maxqueue := 0; nsquash := 0; queue := []; lowpend := false; highpend := false;
       onlow := false; onhigh := false; onstart := false; typed := false;
       tasks := []; backlog := []; reading := true; alive := true; mapped := true; mid := false |}.

  (** a sequence of steps, with all outputs *)
  Fixpoint run (m : mon) (es : list event) : option (mon * list output) :=
    match es with
    | [] => Some (m, [])
    | e :: es' =>
        match step m e with
        | None => None
        | Some (m1, o) =>
            match run m1 es' with
            | None => None
            | Some (m2, o') => Some (m2, o ++ o')
            end
        end
    end.
End Monitor.
