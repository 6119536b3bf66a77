(** Threads which use the channel of a PVA link and the worker of the client context.

    The lock of a channel (pvaLinkChannel::lock) is held by records, by the thread
    "pvxlink" and by the callbacks of a PUT, which run on the worker of the client
    context.  Whoever replaces or drops op_put waits until that worker has cancelled
    it, with the lock held: syncCancel is true by default, src/pvxs/client.h:615 and
    src/clientget.cpp:580-592.

    Simplifications.  Only locks and waits are here, not values.  Locks of records and
    of linkGlobal are left out.  A record may call for any channel, any thread for any
    record.

    No proofs in this file. *)
From Coq Require Import List Bool Arith.
Import ListNotations.

(** what a thread does with the lock held:
    put() replaces op_put, ioc/pvalink_channel.cpp:266-277 (pvaPutValueX(), ioc/pvalink_lset.cpp:570-624; pvaScanForward(), :642-658);
    run() drops it on a disconnect, ioc/pvalink_channel.cpp:362-371;
    others use neither (pvaGetValue(), ioc/pvalink_lset.cpp:237) *)
Inductive job := Put | Drop | Use.
Inductive thread :=
| Idle
| Want (c : nat) (j : job)   (* waits for the lock *)
| Hold (c : nat) (j : job)
| Waits (c : nat) (j : job)  (* has the lock, waits for the worker to cancel the old PUT *)
| Leave (c : nat) (j : job). (* has the lock and is done *)
(** the worker of the client: idle, or in linkBuildPut(), ioc/pvalink_channel.cpp:127-184, or
    linkPutDone(), :186-217 ([d]) *)
Inductive worker := WFree | WWant (c : nat) (d : bool) | WHold (c : nat) (d : bool).
Inductive owner := Nobody | Worker | Thread (t : nat).
Record st := {
  lock : nat -> owner;       (* pvaLinkChannel::lock *)
  op : nat -> bool;          (* op_put is not null *)
  jobs : list nat;           (* threads which wait for a cancel: calls of tryInvoke() in order *)
  wk : worker;
  th : nat -> thread }.
Definition upd {A} (f : nat -> A) (i : nat) (a : A) : nat -> A := fun j => if Nat.eqb j i then a else f j.
Definition set_th (t : nat) (a : thread) (s : st) : st := {| lock := lock s; op := op s; jobs := jobs s; wk := wk s; th := upd (th s) t a |}.
Definition set_lock (c : nat) (o : owner) (s : st) : st := {| lock := upd (lock s) c o; op := op s; jobs := jobs s; wk := wk s; th := th s |}.
Definition set_op (c : nat) (b : bool) (s : st) : st := {| lock := lock s; op := upd (op s) c b; jobs := jobs s; wk := wk s; th := th s |}.
Definition set_jobs (l : list nat) (s : st) : st := {| lock := lock s; op := op s; jobs := l; wk := wk s; th := th s |}.
Definition set_wk (w : worker) (s : st) : st := {| lock := lock s; op := op s; jobs := jobs s; wk := w; th := th s |}.

Inductive event :=
| Call (t c : nat) (j : job)  (* a thread starts to use a channel *)
| Lock (t : nat)
| Go (t : nat)
| Unlock (t : nat)
| Callback (c : nat) (d : bool)  (* the worker calls back for the PUT of [c] *)
| WLock
| WUnlock (again : bool)         (* [again]: linkPutDone() starts the next PUT *)
| Cancel.                        (* the worker runs the first call *)

(** what the job leaves of op_put *)
Definition after (j : job) (b : bool) : bool := match j with Put => true | Drop => false | Use => b end.
Definition waits (j : job) (b : bool) : bool := match j with Use => false | _ => b end.
(** What cannot happen now changes nothing. *)
Definition step (s : st) (e : event) : st :=
  match e with
  | Call t c j => match th s t with Idle => set_th t (Want c j) s | _ => s end
  | Lock t => match th s t with
              | Want c j => match lock s c with Nobody => set_lock c (Thread t) (set_th t (Hold c j) s) | _ => s end
              | _ => s
              end
  | Go t => match th s t with
            | Hold c j => let s1 := set_op c (after j (op s c)) s in
                          (* tryInvoke(true, ) waits, src/evhelper.h:194-199 *)
                          if waits j (op s c) then set_jobs (jobs s ++ [t]) (set_th t (Waits c j) s1) else set_th t (Leave c j) s1
            | _ => s
            end
  | Unlock t => match th s t with Leave c j => set_lock c Nobody (set_th t Idle s) | _ => s end
  | Callback c d => match wk s with WFree => if op s c then set_wk (WWant c d) s else s | _ => s end
  | WLock => match wk s with WWant c d => match lock s c with Nobody => set_lock c Worker (set_wk (WHold c d) s) | _ => s end | _ => s end
  | WUnlock again => match wk s with WHold c d => set_lock c Nobody (set_wk WFree (if d then set_op c again s else s)) | _ => s end
  | Cancel => match wk s, jobs s with
              | WFree, t :: r => match th s t with Waits c j => set_jobs r (set_th t (Leave c j) s) | _ => set_jobs r s end
              | _, _ => s
              end
  end.
Definition run (s : st) (h : list event) : st := fold_left step h s.
Definition start : st := {| lock := fun _ => Nobody; op := fun _ => false; jobs := []; wk := WFree; th := fun _ => Idle |}.
