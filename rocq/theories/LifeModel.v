(** Model of start(), stop(), run() and interrupt() of a Server, src/server.cpp:192-234, :571-668, and UDPListener::start(), src/udp_collector.cpp.

    Threads make calls; what runs on a worker by evbase::call() is one step.  Clients connect and leave, searches arrive at the UDP listeners, and the
    timer for beacons expires, at any time.  An epicsEvent is a flag, as in FifoModel.  Left out: errors of libevent, and what connections do (see the other models).

    No proofs in this file. *)
From Coq Require Import List Bool Arith.
Import ListNotations.

Inductive call := Start | Stop | Run | Interrupt.
Inductive phase := Stopped | Starting | Running | Stopping.
(** Parts of calls.
    [Begin], [Listen], [Go]: start(), :577-596, :599-601, :604-612; [End], [Ignore], [Halt]: stop(), :623-636, :639-641, :643-661;
    [Arm], [Disarm]: constructor and destructor of SigInt, :216, :221, src/util.cpp:298-334; [Await]: done.wait(), :220; [Tell]: done.signal(), :232. *)
Inductive part := Begin | Listen (i : nat) | Go | End | Ignore (i : nat) | Halt | Arm | Await | Disarm | Tell.
(** [udp]: UDPListener::active; [tcp]: evconnlistener_enable(); [timer]: beaconTimer is pending; [sent]: beacons, replies to searches, accepted and closed connections, newest last;
    [sig]: onsig, the one SigInt of a process, and whether its thread has called the handler.  For theorems: [ups], calls of interrupt() and signals to the process which
    reached the handler; [backs]: returns from done.wait(); [downs]: handlers called because a SigInt was destroyed. *)
Inductive sight := Beacon | Reply (i : nat) | Accepted (c : nat) | Closed (c : nat).
Record st := { ph : phase; tcp : bool; udp : list bool; timer : bool; conns : list nat; done : bool; sig : option bool; ups : nat; backs : nat; downs : nat; threads : list (list (list part)); sent : list sight }.

Fixpoint upd {A} (l : list A) (n : nat) (x : A) : list A :=
  match l, n with [], _ => [] | _ :: r, O => x :: r | y :: r, S k => y :: upd r k x end.
Section Life.
  (** how many UDP listeners *)
  Variable L : nat.
  Definition start_parts : list part := Begin :: map Listen (seq 0 L) ++ [Go].
  Definition stop_parts : list part := End :: map Ignore (seq 0 L) ++ [Halt].
  (** run(), :208-226 *)
  Definition parts (c : call) : list (list part) :=
    match c with Start => [start_parts] | Stop => [stop_parts] | Run => [start_parts; [Arm; Await; Disarm]; stop_parts] | Interrupt => [[Tell]] end.
  Definition init (ps : list (list call)) : st :=
    {| ph := Stopped; tcp := false; udp := repeat false L; timer := false; conns := []; done := false; sig := None; ups := 0; backs := 0; downs := 0; threads := map (fun p => flat_map parts p) ps; sent := [] |}.

  (** The next part of a call, the rest of its block, and the blocks after that.  None: it waits.  A return from start() or stop() drops the rest of the block. *)
  Definition do_part (s : st) (p : part) (r : list part) : option (st * list part) :=
    match p with
    | Begin => match ph s with
        | Stopped => Some ({| ph := Starting; tcp := true; udp := udp s; timer := timer s; conns := conns s; done := done s; sig := sig s; ups := ups s; backs := backs s; downs := downs s; threads := threads s; sent := sent s |}, r)
        | _ => Some (s, [])
        end
    | Listen i => Some ({| ph := ph s; tcp := tcp s; udp := upd (udp s) i true; timer := timer s; conns := conns s; done := done s; sig := sig s; ups := ups s; backs := backs s; downs := downs s; threads := threads s; sent := sent s |}, r)
    | Go => Some ({| ph := Running; tcp := tcp s; udp := udp s; timer := true; conns := conns s; done := done s; sig := sig s; ups := ups s; backs := backs s; downs := downs s; threads := threads s; sent := sent s |}, r)
    | End => match ph s with
        | Running => Some ({| ph := Stopping; tcp := tcp s; udp := udp s; timer := false; conns := conns s; done := done s; sig := sig s; ups := ups s; backs := backs s; downs := downs s; threads := threads s; sent := sent s |}, r)
        | _ => Some (s, [])
        end
    | Ignore i => Some ({| ph := ph s; tcp := tcp s; udp := upd (udp s) i false; timer := timer s; conns := conns s; done := done s; sig := sig s; ups := ups s; backs := backs s; downs := downs s; threads := threads s; sent := sent s |}, r)
    | Halt => Some ({| ph := Stopped; tcp := false; udp := udp s; timer := timer s; conns := []; done := done s; sig := sig s; ups := ups s; backs := backs s; downs := downs s; threads := threads s; sent := sent s ++ map Closed (conns s) |}, r)
    (* an exception when there is a SigInt already: see [rest] *)
    | Arm => match sig s with
        | None => Some ({| ph := ph s; tcp := tcp s; udp := udp s; timer := timer s; conns := conns s; done := done s; sig := Some false; ups := ups s; backs := backs s; downs := downs s; threads := threads s; sent := sent s |}, r)
        | Some _ => Some (s, [])
        end
    (* the destructor writes a byte for the thread, and waits for it; the thread calls the handler for this byte just as for one from a signal *)
    | Disarm => match sig s with
        | Some false => Some ({| ph := ph s; tcp := tcp s; udp := udp s; timer := timer s; conns := conns s; done := true; sig := None; ups := ups s; backs := backs s; downs := downs s + 1; threads := threads s; sent := sent s |}, r)
        | _ => Some ({| ph := ph s; tcp := tcp s; udp := udp s; timer := timer s; conns := conns s; done := done s; sig := None; ups := ups s; backs := backs s; downs := downs s; threads := threads s; sent := sent s |}, r)
        end
    | Await => if done s then Some ({| ph := ph s; tcp := tcp s; udp := udp s; timer := timer s; conns := conns s; done := false; sig := sig s; ups := ups s; backs := backs s + 1; downs := downs s; threads := threads s; sent := sent s |}, r) else None
    | Tell => Some ({| ph := ph s; tcp := tcp s; udp := udp s; timer := timer s; conns := conns s; done := true; sig := sig s; ups := ups s + 1; backs := backs s; downs := downs s; threads := threads s; sent := sent s |}, r)
    end.
  (** An exception leaves run(): no stop(). *)
  Definition rest (s : st) (p : part) (bs : list (list part)) : list (list part) :=
    match p with Arm => match sig s with Some _ => tl bs | None => bs end | _ => bs end.
  Definition next_blocks (r : list part) (bs : list (list part)) : list (list part) := match r with [] => bs | _ => r :: bs end.
  Definition with_thread (s : st) (t : nat) (bs : list (list part)) : st :=
    {| ph := ph s; tcp := tcp s; udp := udp s; timer := timer s; conns := conns s; done := done s; sig := sig s; ups := ups s; backs := backs s; downs := downs s; threads := upd (threads s) t bs; sent := sent s |}.
  Inductive event := Thread (t : nat) | Expires | Search (i : nat) | Connects (c : nat) | Leaves (c : nat) | Signal.
  Definition outside (s : st) (cs : list nat) (o : list sight) : st :=
    {| ph := ph s; tcp := tcp s; udp := udp s; timer := timer s; conns := cs; done := done s; sig := sig s; ups := ups s; backs := backs s; downs := downs s; threads := threads s; sent := sent s ++ o |}.
  Definition step (s : st) (e : event) : option st :=
    match e with
    | Thread t => match nth_error (threads s) t with
        | Some ((p :: r) :: bs) => match do_part s p r with Some (s', r') => Some (with_thread s' t (next_blocks r' (rest s p bs))) | None => None end
        | _ => None
        end
    (* doBeacons() adds the timer again *)
    | Expires => if timer s then Some (outside s (conns s) [Beacon]) else None
    | Search i => if nth i (udp s) false then Some (outside s (conns s) [Reply i]) else Some s
    (* ServIface::onConnS(), src/serverconn.cpp:455-465 *)
    | Connects c => if tcp s then Some (outside s (c :: conns s) [Accepted c]) else Some s
    | Leaves c => Some (outside s (remove Nat.eq_dec c (conns s)) [])
    (* SIGINT or SIGTERM, SigInt_handler(), and the thread of SigInt, src/util.cpp:336-362, in one step (see SigModel); the thread calls the handler once.
       Without a SigInt the signal is not for the server. *)
    | Signal => match sig s with
        | Some false => Some {| ph := ph s; tcp := tcp s; udp := udp s; timer := timer s; conns := conns s; done := true; sig := Some true; ups := ups s + 1; backs := backs s; downs := downs s; threads := threads s; sent := sent s |}
        | _ => Some s
        end
    end.
  Fixpoint run (s : st) (es : list event) : option st :=
    match es with [] => Some s | e :: r => match step s e with Some s' => run s' r | None => None end end.
End Life.
