(** Model of SigInt, src/util.cpp:256-373, src/pvxs/util.h:85-111: a thread makes and destroys SigInts, one after another; SIGINT or SIGTERM arrives at any time, and
    SigInt_handler() may run on any thread of the process, several at once; the thread of a SigInt calls the function given by the user.

    Left out: EINTR, errors of send(), threads which fail to start; the two signals are one.  Descriptors are not used again.  A SigInt_handler() may be
    interleaved with any thread, also with that which it interrupts.

    No proofs in this file. *)
From Coq Require Import List Bool Arith.
Import ListNotations.

(** std::atomic onsig, :264-272: EVUTIL_INVALID_SOCKET, that minus one, or a descriptor *)
Inductive ons := Invalid | InProg | Fd (n : nat).
(** SigInt_handler(), :353-362: called; after load(); after compare_exchange_strong(); after send(); done *)
Inductive hst := Called | Loaded (n : nat) | Sending (n : nat) | Restoring (n : nat) | Done.
Inductive op := Make | Destroy.
(** Constructor, :298-317: [Made] before signal(); destructor, :319-334: [Restored] before send(), [Asked] before exitWait(), [Joined] before the loop, [Cleared] before the sockets are closed *)
Inductive phase := Idle | Made | Alive | Restored | Asked | Joined | Cleared.
(** [installed]: SigInt_handler() is the handler of the signals; [fd]: wake.s[1] of the last SigInt, [isopen]: not closed; [q]: bytes to be received; [fin]: run() has returned;
    [calls]: of the function given by the user, for this SigInt.
    For theorems: [asked], signals which called SigInt_handler() since it was made; [told], bytes sent by these; [bad], send() by SigInt_handler() to a closed socket;
    [thrown], exceptions of the constructor. *)
Record st := { prog : list op; ph : phase; next : nat; onsig : ons; installed : bool; fd : nat; isopen : bool; q : nat; fin : bool; calls : nat; asked : nat; told : nat;
  hs : list hst; bad : bool; thrown : nat }.
Definition init (p : list op) : st :=
  {| prog := p; ph := Idle; next := 0; onsig := Invalid; installed := false; fd := 0; isopen := false; q := 0; fin := false; calls := 0; asked := 0; told := 0; hs := []; bad := false; thrown := 0 |}.
Fixpoint upd {A} (l : list A) (n : nat) (x : A) : list A :=
  match l, n with [], _ => [] | _ :: r, O => x :: r | y :: r, S k => y :: upd r k x end.

Definition goes (s : st) (f : phase) (o : ons) (i op : bool) (n : nat) : st :=
  {| prog := prog s; ph := f; next := next s; onsig := o; installed := i; fd := fd s; isopen := op; q := n; fin := fin s; calls := calls s; asked := asked s; told := told s; hs := hs s; bad := bad s; thrown := thrown s |}.
Definition with_prog (s : st) (p : list op) (t : nat) : st :=
  {| prog := p; ph := ph s; next := next s; onsig := onsig s; installed := installed s; fd := fd s; isopen := isopen s; q := q s; fin := fin s; calls := calls s; asked := asked s; told := told s; hs := hs s; bad := bad s; thrown := t |}.
Definition same_fd (o : ons) (n : nat) : bool := match o with Fd m => m =? n | _ => false end.
(** The thread which makes and destroys SigInts. *)
Definition user (s : st) : option st :=
  match ph s, prog s with
  | Idle, Make :: r => match onsig s with
      | Invalid => Some {| prog := r; ph := Made; next := next s + 1; onsig := Fd (next s); installed := installed s; fd := next s; isopen := true; q := 0; fin := false; calls := 0; asked := 0; told := 0; hs := hs s; bad := bad s; thrown := thrown s |}
      | _ => Some (with_prog s r (thrown s + 1))
      end
  | Idle, Destroy :: r => Some (with_prog s r (thrown s))
  | Idle, [] => None
  | Made, _ => Some (goes s Alive (onsig s) true (isopen s) (q s))
  | Alive, Make :: r => Some (with_prog s r (thrown s + 1))
  | Alive, Destroy :: r => Some (goes (with_prog s r (thrown s)) Restored (onsig s) false (isopen s) (q s))
  | Alive, [] => None
  | Restored, _ => Some (goes s Asked (onsig s) (installed s) (isopen s) (q s + 1))
  | Asked, _ => if fin s then Some (goes s Joined (onsig s) (installed s) (isopen s) (q s)) else None
  (* while((expect=onsig)==wake.s[1] && !compare_exchange_strong(...)): left at once if onsig is anything but the socket *)
  | Joined, _ => Some (goes s Cleared (if same_fd (onsig s) (fd s) then Invalid else onsig s) (installed s) (isopen s) (q s))
  | Cleared, _ => Some (goes s Idle (onsig s) (installed s) false (q s))
  end.
(** run(), :336-349: any byte calls the handler, and ends the thread *)
Definition worker (s : st) : option st :=
  if isopen s && negb (fin s) && (0 <? q s) then
    Some {| prog := prog s; ph := ph s; next := next s; onsig := onsig s; installed := installed s; fd := fd s; isopen := isopen s; q := q s - 1; fin := true; calls := calls s + 1; asked := asked s; told := told s; hs := hs s; bad := bad s; thrown := thrown s |}
  else None.
Definition handle (s : st) (i : nat) (h : hst) (o : ons) : st :=
  {| prog := prog s; ph := ph s; next := next s; onsig := o; installed := installed s; fd := fd s; isopen := isopen s; q := q s; fin := fin s; calls := calls s; asked := asked s; told := told s; hs := upd (hs s) i h; bad := bad s; thrown := thrown s |}.
Definition send (s : st) (n : nat) : st :=
  if isopen s && (n =? fd s) then
    {| prog := prog s; ph := ph s; next := next s; onsig := onsig s; installed := installed s; fd := fd s; isopen := isopen s; q := q s + 1; fin := fin s; calls := calls s; asked := asked s; told := told s + 1; hs := hs s; bad := bad s; thrown := thrown s |}
  else
    {| prog := prog s; ph := ph s; next := next s; onsig := onsig s; installed := installed s; fd := fd s; isopen := isopen s; q := q s; fin := fin s; calls := calls s; asked := asked s; told := told s; hs := hs s; bad := true; thrown := thrown s |}.
Definition handler (s : st) (i : nat) : option st :=
  match nth_error (hs s) i with
  | Some Called => match onsig s with Fd n => Some (handle s i (Loaded n) (onsig s)) | _ => Some (handle s i Done (onsig s)) end
  | Some (Loaded n) => if same_fd (onsig s) n then Some (handle s i (Sending n) InProg) else Some (handle s i Done (onsig s))
  | Some (Sending n) => Some (handle (send s n) i (Restoring n) (onsig s))
  | Some (Restoring n) => Some (handle s i Done (Fd n))
  | Some Done | None => None
  end.
Inductive event := User | Worker | Handler (i : nat) | Signal.
Definition step (s : st) (e : event) : option st :=
  match e with
  | User => user s
  | Worker => worker s
  | Handler i => handler s i
  | Signal => if installed s then Some {| prog := prog s; ph := ph s; next := next s; onsig := onsig s; installed := installed s; fd := fd s; isopen := isopen s; q := q s; fin := fin s; calls := calls s; asked := asked s + 1; told := told s; hs := hs s ++ [Called]; bad := bad s; thrown := thrown s |}
      else Some s
  end.
Fixpoint run (s : st) (es : list event) : option st :=
  match es with [] => Some s | e :: r => match step s e with Some s' => run s' r | None => None end end.
