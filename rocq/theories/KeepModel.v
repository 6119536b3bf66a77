(** Model of keep-alive on an idle connection: the echo timer of a client, echo replies of a server, and the idle timeouts of both,
    src/clientconn.cpp:71-72, :152-157, :473-498; src/serverconn.cpp:84-85, :143-159; src/conn.cpp:126-146; src/config.cpp:372-390.

    Time is in microseconds.  Simplifications.  Timers are punctual, and the peers answer at once, so that their delays count as delays of the
    network.  [delay] bounds the time of a message on its way; None: the network has failed.  Timeouts for writing are left out (the output
    is empty but for echos), and so is that a server which stops reading has no timeout meanwhile (TxModel).  Rounding of double is left out.

    No proofs in this file. *)
From Coq Require Import ZArith List Bool.
Import ListNotations.
Local Open Scope Z_scope.

Definition sec : Z := 1000000.
(** enforceTimeout(), src/config.cpp:372-390.  None: not finite, or too large for time_t. *)
Definition enforce (tmo : option Z) : Z :=
  match tmo with
  | None => 40 * sec
  | Some t => if t <=? 0 then 40 * sec else if t <? 2 * sec then 2 * sec else t
  end.
(** Configured, as EPICS_PVA_CONN_TMO: parse_timeout() and tmoScale, src/config.cpp:149, :211-227.  Below zero is ignored: the default of 40 s, src/pvxs/client.h *)
Definition configured (t : Z) : Z := if t <? 0 then 40 * sec else enforce (Some (t * 4 / 3)).
(** src/clientconn.cpp:155 *)
Definition echo_period (tmo : Z) : Z := Z.max sec (Z.min (15 * sec) (tmo * 3 / 8)).

(** [tick]: when the echo timer expires; [c_last], [s_last]: when client and server received last; [to_server], [to_client]: when the
    messages under way were sent; [dropped]: which peer closed the connection. *)
Inductive peer := Client | Server.
Record st := { now : Z; tick : Z; c_last : Z; s_last : Z; to_server : list Z; to_client : list Z; dropped : option peer }.
(** tc, ts: tcpTimeout of client and server *)
Section Keep.
  Variables tc ts : Z.
  Variable delay : option Z.
  Definition init (t : Z) : st := {| now := t; tick := t + echo_period tc; c_last := t; s_last := t; to_server := []; to_client := []; dropped := None |}.

  Inductive event :=
  | Wait (d : Z)         (* time passes; nothing that is due waits *)
  | Echo                 (* tickEcho(), src/clientconn.cpp:483-497 *)
  | AtServer             (* an echo arrives; handle_ECHO(), src/serverconn.cpp:143-159, answers *)
  | AtClient             (* the reply arrives *)
  | Other (p : peer)     (* any other message arrives *)
  | Expire (p : peer).   (* bevEvent(BEV_EVENT_TIMEOUT), src/conn.cpp:126-146 *)
  Definition by_then (l : list Z) (t : Z) : bool :=
    match l, delay with x :: _, Some d => t <=? x + d | _, _ => true end.
  Definition may_wait (s : st) (t : Z) : bool :=
    (t <=? tick s) && (t <=? c_last s + tc) && (t <=? s_last s + ts) && by_then (to_server s) t && by_then (to_client s) t.
  (** None: not possible now. *)
  Definition step (s : st) (e : event) : option st :=
    match dropped s with Some _ => None | None =>
      match e with
      | Wait d => if (0 <? d) && may_wait s (now s + d) then
          Some {| now := now s + d; tick := tick s; c_last := c_last s; s_last := s_last s; to_server := to_server s; to_client := to_client s; dropped := None |}
          else None
      | Echo => if now s =? tick s then
          Some {| now := now s; tick := tick s + echo_period tc; c_last := c_last s; s_last := s_last s; to_server := to_server s ++ [now s]; to_client := to_client s; dropped := None |}
          else None
      | AtServer => match to_server s with
          | _ :: r => Some {| now := now s; tick := tick s; c_last := c_last s; s_last := now s; to_server := r; to_client := to_client s ++ [now s]; dropped := None |}
          | [] => None
          end
      | AtClient => match to_client s with
          | _ :: r => Some {| now := now s; tick := tick s; c_last := now s; s_last := s_last s; to_server := to_server s; to_client := r; dropped := None |}
          | [] => None
          end
      | Other Client => Some {| now := now s; tick := tick s; c_last := now s; s_last := s_last s; to_server := to_server s; to_client := to_client s; dropped := None |}
      | Other Server => Some {| now := now s; tick := tick s; c_last := c_last s; s_last := now s; to_server := to_server s; to_client := to_client s; dropped := None |}
      | Expire Client => if now s =? c_last s + tc then
          Some {| now := now s; tick := tick s; c_last := c_last s; s_last := s_last s; to_server := to_server s; to_client := to_client s; dropped := Some Client |} else None
      | Expire Server => if now s =? s_last s + ts then
          Some {| now := now s; tick := tick s; c_last := c_last s; s_last := s_last s; to_server := to_server s; to_client := to_client s; dropped := Some Server |} else None
      end
    end.
  Fixpoint run (s : st) (es : list event) : option st :=
    match es with [] => Some s | e :: r => match step s e with Some s' => run s' r | None => None end end.
End Keep.
