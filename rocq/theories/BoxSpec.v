(** Specification vocabulary for mailbox PVs. *)
From Coq Require Import String ZArith List Bool.
From Verif Require Import Base TypeModel TypeSpec ValueModel ValueSpec MarkSpec CopyModel CopySpec BoxModel.
Import ListNotations.
Local Open Scope Z_scope.

(** The type has no field timeStamp. *)
Definition no_time (m : member) : Prop := forall k d, ~ field_at m [bs "timeStamp"] k d.
(** Fields [a] and [b] of the type are timeStamp.secondsPastEpoch and timeStamp.nanoseconds, of the types which these have in all
    standard types; [k] is timeStamp. *)
Definition time_at (m : member) (k a b : nat) : Prop :=
  exists d x y i j, field_at m [bs "timeStamp"] k d /\ m_code d = tc_Struct /\
    field_at d [bs "secondsPastEpoch"] i x /\ m_code x = tc_Int64 /\ a = (k + i)%nat /\
    field_at d [bs "nanoseconds"] j y /\ m_code y = tc_Int32 /\ b = (k + j)%nat.
(** A client has given some time: timeStamp, a field of it or the whole value is marked. *)
Definition gives_time (m : member) (k : nat) (u : list cell) : Prop :=
  marked u k \/ (exists i, is_inside (flatten m) i k /\ marked u i) \/ (exists i, is_inside (flatten m) k i /\ marked u i).
(** [sec] and [nsec]: a time in seconds since 1990, up to 2106. *)
Definition time_ok (now : Z * Z) : Prop := 0 <= fst now < 2 ^ 32 - 631152000 /\ 0 <= snd now < 10 ^ 9.
(** [u'] is the update [u], with the time if it gives none. *)
Definition timed (m : member) (now : option (Z * Z)) (u u' : list cell) : Prop :=
  (no_time m /\ u' = u) \/
  exists k a b, time_at m k a b /\
    ((gives_time m k u \/ now = None) /\ u' = u \/
     ~ gives_time m k u /\ exists sec nsec u1, now = Some (sec, nsec) /\
       field_set a (SInt (sec + 631152000)) u u1 /\ field_set b (SInt nsec) u1 u').

(** [keeps nodes j us x y]: if field [j] was [x] and was then sent the updates [us], it is [y]: the content in the last update which
    carries it, if any. *)
Inductive keeps (nodes : list fdesc) (j : nat) : list (list cell) -> cell -> cell -> Prop :=
| k_end : forall x, keeps nodes j [] x x
| k_set : forall u us x y b s, nth_error u j = Some (b, s) -> carried nodes u 0 j -> keeps nodes j us (true, as_assigned s) y -> keeps nodes j (u :: us) x y
| k_same : forall u us x y, ~ carried nodes u 0 j -> keeps nodes j us x y -> keeps nodes j (u :: us) x y.

(** The updates which the calls make: those posted, and those put by clients, with the time. *)
Inductive updates (m : member) : list call -> list (list cell) -> Prop :=
| u_end : updates m [] []
| u_get : forall l us, updates m l us -> updates m (CGet :: l) us
| u_post : forall u subs l us, updates m l us -> updates m (CPost (Val (flatten m) u) subs :: l) (u :: us)
| u_put : forall u u' now subs l us, timed m now u u' -> updates m l us -> updates m (CPut (Val (flatten m) u) now subs :: l) (u' :: us).
(** Calls with values of the type of the PV and proper times. *)
Definition sound_call (m : member) (c : call) : Prop :=
  match c with
  | CPut v now _ => value_of m v /\ forall t, now = Some t -> time_ok t
  | CPost v _ => value_of m v
  | CGet => True
  end.
(** Every PUT and post is done, every GET gives a value. *)
Definition served (c : call) (a : answer) : Prop :=
  match c with CGet => exists v, a = AValue v | _ => a = ADone end.
