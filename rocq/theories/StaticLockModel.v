(** Who holds the lock of a StaticSource, and who waits for whom, when PVs are added, removed and closed: src/sharedpv.cpp:471-604.

    SharedPV::close() has the worker of the server close each channel, and waits for it: ServerChannelControl::close(),
    src/serverchan.cpp:130-158, and evbase::call(), src/evhelper.cpp:318-349.  Closing the last channel of a PV calls
    SharedPV::onLastDisconnect() on the worker, src/sharedpv.cpp:278-297.  remove() has given up the lock by then, :589-602;
    close() of the source holds it for reading, :559-565.

    Simplifications.  Each thread and the worker do a list of actions.  The lock is given to anybody as soon as it is free, as the read-write
    locks of POSIX and Windows allow: readers do not wait for writers which wait.  Other locks are not here, since they are not held while waiting:
    SharedPV::Impl::lock is released by UnGuard or a block, :292, :404-409.

    No proofs in this file. *)
From Coq Require Import List Bool Arith.
Import ListNotations.

(** Actions of a callback, on the worker: lookups take the lock for reading, add() and remove() for writing. *)
Inductive quick := QRead | QWrite.
Definition job := list quick.
(** Actions of a thread.  [Call j]: have the worker do [j] and wait until it is done. *)
Inductive action := Read | EndRead | Write | EndWrite | Call (j : job).
(** What the application does from its threads.  [js]: for each channel which is closed, what the callbacks do then. *)
Inductive use := UAdd | URemove (js : list job) | UClose (js : list job) | ULook.
Definition actions (u : use) : list action :=
  match u with
  | UAdd => [Write; EndWrite]                          (* :568-582 *)
  | URemove js => Write :: EndWrite :: map Call js     (* :584-604 *)
  | UClose js => Read :: map Call js ++ [EndRead]      (* :554-566 *)
  | ULook => [Read; EndRead]                           (* :606-618 *)
  end.

(** [readers]: threads and worker which hold the lock for reading; [writing]: somebody holds it for writing; [todo]: for each thread what it still has to do, and
    whether it has asked the worker for the first of it and waits; [jobs]: what the worker has been asked to do, with the thread which waits, if any;
    [inside]: the worker holds the lock, as [quick] says. *)
Record st := { readers : nat; writing : bool; todo : list (bool * list action); jobs : list (option nat * job); inside : option quick }.
Definition init (us : list (list use)) (requests : list job) : st :=
  {| readers := 0; writing := false; todo := map (fun u => (false, flat_map actions u)) us;
     jobs := map (fun j => (None, j)) requests; inside := None |}.
Fixpoint set_at {A} (i : nat) (x : A) (l : list A) : list A :=
  match l, i with [], _ => [] | _ :: l', O => x :: l' | a :: l', S i' => a :: set_at i' x l' end.

(** [Thread t]: thread [t] does its next action; [Work]: the worker goes on.  None: it has to wait, or has nothing to do. *)
Inductive event := Thread (t : nat) | Work.
Definition step (s : st) (e : event) : option st :=
  match e with
  | Thread t =>
      match nth_error (todo s) t with
      | Some (b, a :: r) =>
          match a with
          | Read => if writing s then None else
              Some {| readers := S (readers s); writing := false; todo := set_at t (b, r) (todo s); jobs := jobs s; inside := inside s |}
          | EndRead =>
              Some {| readers := pred (readers s); writing := writing s; todo := set_at t (b, r) (todo s); jobs := jobs s; inside := inside s |}
          | Write => if writing s || negb (readers s =? 0) then None else
              Some {| readers := readers s; writing := true; todo := set_at t (b, r) (todo s); jobs := jobs s; inside := inside s |}
          | EndWrite =>
              Some {| readers := readers s; writing := false; todo := set_at t (b, r) (todo s); jobs := jobs s; inside := inside s |}
          | Call j => if b then None else
              Some {| readers := readers s; writing := writing s; todo := set_at t (true, a :: r) (todo s); jobs := jobs s ++ [(Some t, j)]; inside := inside s |}
          end
      | _ => None
      end
  | Work =>
      match inside s, jobs s with
      | Some QRead, _ =>
          Some {| readers := pred (readers s); writing := writing s; todo := todo s; jobs := jobs s; inside := None |}
      | Some QWrite, _ =>
          Some {| readers := readers s; writing := false; todo := todo s; jobs := jobs s; inside := None |}
      | None, (t, q :: r) :: l =>
          match q with
          | QRead => if writing s then None else
              Some {| readers := S (readers s); writing := false; todo := todo s; jobs := (t, r) :: l; inside := Some QRead |}
          | QWrite => if writing s || negb (readers s =? 0) then None else
              Some {| readers := readers s; writing := true; todo := todo s; jobs := (t, r) :: l; inside := Some QWrite |}
          end
      (* the job is done: the thread goes on *)
      | None, (Some t, []) :: l =>
          Some {| readers := readers s; writing := writing s; todo := set_at t (false, tl (snd (nth t (todo s) (false, [])))) (todo s);
                  jobs := l; inside := None |}
      | None, (None, []) :: l =>
          Some {| readers := readers s; writing := writing s; todo := todo s; jobs := l; inside := None |}
      | None, [] => None
      end
  end.
Fixpoint run (s : st) (es : list event) : option st :=
  match es with [] => Some s | e :: r => match step s e with Some s' => run s' r | None => None end end.
