(** Words for what is promised of idle connections. *)
From Coq Require Import ZArith List Bool.
From Verif Require Import KeepModel.
Import ListNotations.
Local Open Scope Z_scope.

(** Does [p] receive something? *)
Definition hears (p : peer) (e : event) : bool :=
  match p, e with Client, AtClient => true | Client, Other Client => true | Server, AtServer => true | Server, Other Server => true | _, _ => false end.
Definition deaf (p : peer) (es : list event) : Prop := forallb (fun e => negb (hears p e)) es = true.
(** Nothing but echos and their replies is sent. *)
Definition idle (es : list event) : Prop := forall p, ~ In (Other p) es.
Definition last_of (p : peer) (s : st) : Z := match p with Client => c_last s | Server => s_last s end.
(** A connection made at time [t], after some history. *)
Definition reached (tc ts : Z) (delay : option Z) (t : Z) (s : st) : Prop := exists es, run tc ts delay (init tc t) es = Some s.
