(** Model of the work queue of an event loop: evbase::_dispatch(), _call() (src/evhelper.cpp:297-347),
    evbase::Pvt::doWork() (:219-242) and join() (:158-169); and of ResultWaiter (src/client.cpp:287-311).

    Any number of threads; what a thread does under a lock, or in one call of libevent or of
    epicsEvent, is one step, and the steps of different threads come in any order.

    libevent: the timers scheduled are a list in order of their time, and the worker takes them from
    the front; event_add() of a timer which is scheduled already moves it to the end.
    event_base_loopexit() schedules a timer after which the loop ends with the current iteration
    (event_base_loopexit(3)): timers due in the same iteration may still run, later ones do not.

    Simplifications: no two timers have the same time; call() by the worker itself, which executes the
    action at once (:320-323), and failure of event_add() are left out.

    No proofs in this file. *)
From Coq Require Import List Bool Arith.
Import ListNotations.

(** ** evbase *)
(** struct Work, src/evhelper.cpp:122-129: an action is a number; [w_caller]: the thread in call() *)
Record work := { w_id : nat; w_caller : option nat }.
(** what a thread is doing: nothing here; between the lock and event_add() (and, in call(), to wait
    thereafter for this action); waiting in call(), src/evhelper.cpp:297-347 *)
Inductive thread := Free | Adding (wait : option nat) | Waiting (id : nat).
(** Pvt::dowork (src/evhelper.cpp:191-192) and event_base_loopexit() (:166) *)
Inductive timer := DoWork | LoopExit.
(** evbase::Pvt, src/evhelper.cpp:116-141 *)
Record evbase := {
  queue : list work;              (* actions *)
  timers : list timer;            (* scheduled with libevent *)
  todo : list work;               (* local variable of doWork() *)
  running : bool;
  leaving : bool;                 (* event_base_loopexit()'s timer has run *)
  exited : bool;                  (* event_base_loop() has returned *)
  threads : nat -> thread;
  signal : nat -> option bool;    (* ThreadEvent of a thread signalled; false: result has an exception *)
  accepted : list nat;            (* actions for which dispatch() or call() did not refuse, in order *)
  ran : list nat;                 (* actions executed, in order *)
  returned : list (nat * nat * bool)      (* thread, action: call() returned; false: by exception *)
}.
Definition new_evbase : evbase :=
  {| queue := []; timers := []; todo := []; running := true; leaving := false; exited := false; threads := fun _ => Free;
     signal := fun _ => None; accepted := []; ran := []; returned := [] |}.

Inductive event :=
| Dispatch (t id : nat)           (* dispatch(), up to the end of the lock *)
| Call (t id : nat)               (* call(), likewise *)
| Add (t : nat)                   (* event_add() *)
| Return (t : nat)                (* done->wait() and after *)
| Stop                            (* join(): running = false *)
| Exit                            (* join(): event_base_loopexit() *)
| Wake                            (* the worker takes the first timer *)
| Exec                            (* the worker executes an action *)
| Leave.                          (* event_base_loop() returns *)

Definition upd {A} (f : nat -> A) (t : nat) (x : A) : nat -> A := fun n => if n =? t then x else f n.
(** event_add() with a zero timeout *)
Definition is_work (x : timer) : bool := match x with DoWork => true | LoopExit => false end.
Definition schedule (l : list timer) : list timer := filter (fun y => negb (is_work y)) l ++ [DoWork].

(** _dispatch() and _call() under the lock, src/evhelper.cpp:299-308, 327-336 *)
Definition push (s : evbase) (t id : nat) (call : bool) : evbase :=
  if running s then
    {| queue := queue s ++ [{| w_id := id; w_caller := if call then Some t else None |}];
       timers := timers s; todo := todo s; running := running s; leaving := leaving s; exited := exited s;
       threads := upd (threads s) t
                      (match queue s with
                       | [] => Adding (if call then Some id else None)
                       | _ => if call then Waiting id else Free
                       end);
       signal := signal s; accepted := accepted s ++ [id]; ran := ran s; returned := returned s |}
  else s.
(** event_add(dowork, &now), src/evhelper.cpp:310-312, 338-340 *)
Definition add (s : evbase) (t : nat) (w : option nat) : evbase :=
  {| queue := queue s; timers := schedule (timers s); todo := todo s; running := running s; leaving := leaving s; exited := exited s;
     threads := upd (threads s) t (match w with Some id => Waiting id | None => Free end);
     signal := signal s; accepted := accepted s; ran := ran s; returned := returned s |}.
(** end of _call(), src/evhelper.cpp:342-346 *)
Definition return_ (s : evbase) (t id : nat) (ok : bool) : evbase :=
  {| queue := queue s; timers := timers s; todo := todo s; running := running s; leaving := leaving s; exited := exited s;
     threads := upd (threads s) t Free; signal := upd (signal s) t None;
     accepted := accepted s; ran := ran s; returned := returned s ++ [(t, id, ok)] |}.
(** the loop; doWork() up to the end of the lock, src/evhelper.cpp:221-225 *)
Definition wake (s : evbase) : evbase :=
  if exited s then s else
  match todo s, timers s with
  | [], DoWork :: l =>
    {| queue := []; timers := l; todo := queue s; running := running s; leaving := leaving s; exited := exited s; threads := threads s;
       signal := signal s; accepted := accepted s; ran := ran s; returned := returned s |}
  | [], LoopExit :: l =>
    {| queue := queue s; timers := l; todo := todo s; running := running s; leaving := true; exited := exited s; threads := threads s;
       signal := signal s; accepted := accepted s; ran := ran s; returned := returned s |}
  | _, _ => s
  end.
(** the loop of doWork(), src/evhelper.cpp:226-241; [throws]: the actions which throw *)
Definition exec (throws : nat -> bool) (s : evbase) : evbase :=
  match todo s with
  | w :: l =>
    {| queue := queue s; timers := timers s; todo := l; running := running s; leaving := leaving s; exited := exited s; threads := threads s;
       signal := match w_caller w with Some t => upd (signal s) t (Some (negb (throws (w_id w)))) | None => signal s end;
       accepted := accepted s; ran := ran s ++ [w_id w]; returned := returned s |}
  | [] => s
  end.
(** join(), src/evhelper.cpp:158-169 *)
Definition stop (s : evbase) : evbase :=
  {| queue := queue s; timers := timers s; todo := todo s; running := false; leaving := leaving s; exited := exited s; threads := threads s;
     signal := signal s; accepted := accepted s; ran := ran s; returned := returned s |}.
Definition exit_ (s : evbase) : evbase :=
  {| queue := queue s; timers := timers s ++ [LoopExit]; todo := todo s; running := running s; leaving := leaving s; exited := exited s; threads := threads s;
     signal := signal s; accepted := accepted s; ran := ran s; returned := returned s |}.
(** event_base_loop() returns, src/evhelper.cpp:204 *)
Definition leave (s : evbase) : evbase :=
  match leaving s, todo s with
  | true, [] =>
    {| queue := queue s; timers := timers s; todo := todo s; running := running s; leaving := leaving s; exited := true; threads := threads s;
       signal := signal s; accepted := accepted s; ran := ran s; returned := returned s |}
  | _, _ => s
  end.
Definition step (throws : nat -> bool) (s : evbase) (e : event) : evbase :=
  match e with
  | Dispatch t id => match threads s t with Free => push s t id false | _ => s end
  | Call t id => match threads s t with Free => push s t id true | _ => s end
  | Add t => match threads s t with Adding w => add s t w | _ => s end
  | Return t => match threads s t, signal s t with Waiting id, Some ok => return_ s t id ok | _, _ => s end
  | Stop => stop s
  | Exit => if running s then s else exit_ s
  | Wake => wake s
  | Exec => exec throws s
  | Leave => leave s
  end.
Definition run (throws : nat -> bool) : list event -> evbase -> evbase := fold_left (step throws).

(** ** ResultWaiter, src/clientimpl.h (ResultWaiter), src/client.cpp:287-311 *)
Inductive outcome := Busy | Done (r : nat) | Abort.
(** a thread in wait(): not; blocked in notify.wait(); woken and about to look again *)
Inductive waiting := Away | Blocked | Woken.
(** what wait() did: returned this result, threw Interrupted, threw Timeout *)
Inductive answer := Result (r : nat) | Interrupted | Timeout.
Record waiter := {
  outc : outcome;
  due : nat;                      (* complete() between the lock and notify.signal() *)
  sig : bool;                     (* epicsEvent: one signal, taken by one wait() *)
  who : nat -> waiting;
  answers : list (nat * answer)
}.
Definition new_waiter : waiter := {| outc := Busy; due := 0; sig := false; who := fun _ => Away; answers := [] |}.
Inductive wevent :=
| Complete (r : nat) | Interrupt  (* complete(), up to the end of the lock *)
| Signal                          (* notify.signal() *)
| Wait (t : nat)                  (* wait() up to notify.wait() or its end *)
| Wakeup (t : nat)                (* notify.wait() returns true *)
| Again (t : nat)                 (* after it *)
| Expire (t : nat).               (* notify.wait() returns false *)
(** ResultWaiter::complete() under the lock, src/client.cpp:303-309 *)
Definition complete (s : waiter) (o : outcome) : waiter :=
  match outc s with
  | Busy => {| outc := o; due := due s + 1; sig := sig s; who := who s; answers := answers s |}
  | _ => s
  end.
(** the test of ResultWaiter::wait() and what follows the loop, src/client.cpp:290-298 *)
Definition look (s : waiter) (t : nat) : waiter :=
  let ans a := {| outc := outc s; due := due s; sig := sig s; who := upd (who s) t Away; answers := answers s ++ [(t, a)] |} in
  match outc s with
  | Busy => {| outc := outc s; due := due s; sig := sig s; who := upd (who s) t Blocked; answers := answers s |}
  | Done r => ans (Result r)
  | Abort => ans Interrupted
  end.
Definition wstep (s : waiter) (e : wevent) : waiter :=
  match e with
  | Complete r => complete s (Done r)
  | Interrupt => complete s Abort
  | Signal => match due s with
              | O => s
              | S n => {| outc := outc s; due := n; sig := true; who := who s; answers := answers s |}
              end
  | Wait t => match who s t with Away => look s t | _ => s end
  | Wakeup t =>
    match who s t, sig s with
    | Blocked, true => {| outc := outc s; due := due s; sig := false; who := upd (who s) t Woken; answers := answers s |}
    | _, _ => s
    end
  | Again t => match who s t with Woken => look s t | _ => s end
  | Expire t =>
    match who s t, sig s with
    | Blocked, false => {| outc := outc s; due := due s; sig := sig s; who := upd (who s) t Away; answers := answers s ++ [(t, Timeout)] |}
    | _, _ => s
    end
  end.
Definition wrun : list wevent -> waiter -> waiter := fold_left wstep.
