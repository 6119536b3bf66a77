(** Model of MPMCFIFO<T>, the queue between threads, src/pvxs/util.h:193-317.

    Any number of threads, each with a list of calls to make.  What a call does while it holds the mutex is one step.  An epicsEvent is a
    flag: signal() sets it, wait() returns when it is set and resets it, for one thread.  Elements are named by numbers.  Left out:
    exceptions of the constructors of T, and the destructor.

    No proofs in this file. *)
From Coq Require Import List Bool Arith.
Import ListNotations.

Inductive call := Push (x : nat) | Pop.
(** Where a thread is.
    [Ready]: before its next call, or done; [Waiting]: in notifyW.wait() (:255-258) or notifyR.wait() (:297-300), according to the call;
    [Woken]: that has returned, and the mutex is not taken again yet; [Signals r w]: has left the mutex, and has to signal the readers, the writers (:267-270, :310-313). *)
Inductive place := Ready | Waiting | Woken | Signals (r w : bool).
Record thread := { calls : list call; at_ : place }.
(** [ins], [outs]: who pushed and popped what, in order; not part of the code *)
Record st := { q : list nat; nwriters : nat; nreaders : nat; flagW : bool; flagR : bool; threads : list thread; ins : list (nat * nat); outs : list (nat * nat) }.
Definition init (ps : list (list call)) : st :=
  {| q := []; nwriters := 0; nreaders := 0; flagW := false; flagR := false; threads := map (fun p => {| calls := p; at_ := Ready |}) ps; ins := []; outs := [] |}.

Fixpoint upd {A} (l : list A) (n : nat) (x : A) : list A :=
  match l, n with [], _ => [] | _ :: r, O => x :: r | y :: r, S k => y :: upd r k x end.
Definition signals (r w : bool) : place := if r || w then Signals r w else Ready.
Definition positive (n : nat) : bool := negb (n =? 0).
Section Fifo.
  (** nlimit; zero: none *)
  Variable limit : nat.
  (** while(nlimit && Q.size()>=nlimit), :253 *)
  Definition full (l : list nat) : bool := positive limit && (limit <=? length l).
  (** emplace(), :248-271, from the test of the loop on.  [woken]: comes from the wait, :259 *)
  Definition enter_push (s : st) (t : nat) (x : nat) (r : list call) (woken : bool) : st :=
    let nw := if woken then nwriters s - 1 else nwriters s in
    if full (q s) then
      {| q := q s; nwriters := nw + 1; nreaders := nreaders s; flagW := flagW s; flagR := flagR s; threads := upd (threads s) t {| calls := Push x :: r; at_ := Waiting |}; ins := ins s; outs := outs s |}
    else
      let wakeR := (length (q s) =? 0) && positive (nreaders s) in
      let q' := q s ++ [x] in
      let wakeW := positive nw && (length q' <? limit) in
      {| q := q'; nwriters := nw; nreaders := nreaders s; flagW := flagW s; flagR := flagR s; threads := upd (threads s) t {| calls := r; at_ := signals wakeR wakeW |}; ins := ins s ++ [(t, x)]; outs := outs s |}.
  (** pop(), :289-315 *)
  Definition enter_pop (s : st) (t : nat) (r : list call) (woken : bool) : st :=
    let nr := if woken then nreaders s - 1 else nreaders s in
    match q s with
    | [] =>
      {| q := q s; nwriters := nwriters s; nreaders := nr + 1; flagW := flagW s; flagR := flagR s; threads := upd (threads s) t {| calls := Pop :: r; at_ := Waiting |}; ins := ins s; outs := outs s |}
    | x :: q' =>
      let wakeW := positive (nwriters s) in
      let wakeR := positive (length q') && positive nr in
      {| q := q'; nwriters := nwriters s; nreaders := nr; flagW := flagW s; flagR := flagR s; threads := upd (threads s) t {| calls := r; at_ := signals wakeR wakeW |}; ins := ins s; outs := outs s ++ [(t, x)] |}
    end.
  Definition place_of (s : st) (t : nat) (x : thread) : st :=
    {| q := q s; nwriters := nwriters s; nreaders := nreaders s; flagW := flagW s; flagR := flagR s; threads := upd (threads s) t x; ins := ins s; outs := outs s |}.
  Definition flags (s : st) (fw fr : bool) : st :=
    {| q := q s; nwriters := nwriters s; nreaders := nreaders s; flagW := fw; flagR := fr; threads := threads s; ins := ins s; outs := outs s |}.
  (** Thread [t] goes on.  None: it can not. *)
  Definition step (s : st) (t : nat) : option st :=
    match nth_error (threads s) t with
    | None => None
    | Some x =>
      match at_ x, calls x with
      | Ready, [] => None
      | Ready, Push v :: r => Some (enter_push s t v r false)
      | Ready, Pop :: r => Some (enter_pop s t r false)
      | Waiting, Push v :: r => if flagW s then Some (place_of (flags s false (flagR s)) t {| calls := Push v :: r; at_ := Woken |}) else None
      | Waiting, Pop :: r => if flagR s then Some (place_of (flags s (flagW s) false) t {| calls := Pop :: r; at_ := Woken |}) else None
      | Woken, Push v :: r => Some (enter_push s t v r true)
      | Woken, Pop :: r => Some (enter_pop s t r true)
      | Signals true w, l => Some (place_of (flags s (flagW s) true) t {| calls := l; at_ := signals false w |})
      | Signals false _, l => Some (place_of (flags s true (flagR s)) t {| calls := l; at_ := Ready |})
      | _, [] => None
      end
    end.
  Fixpoint run (s : st) (es : list nat) : option st :=
    match es with [] => Some s | t :: r => match step s t with Some s' => run s' r | None => None end end.
End Fifo.
