(** Model of the receive side of a TCP connection, ConnBase::bevRead()
    (src/conn.cpp:148-303), and of enqueueTxBody() (:89-101).

    libevent appends what it read from the socket to the receive buffer and calls
    bevRead() when the buffer has at least the low watermark; it does not read while
    the buffer has the high watermark.  One step of a history is: some bytes
    were read.  The handlers of messages are a parameter: a handler changes
    some state of the user's, and keeps the connection or ends it, by an exception
    or by bev.reset().

    Simplifications: the connection ended by the peer or by an error, bevEvent(),
    is not here (the history ends); `remaining` is computed again from the buffer on each
    round, which is the same but after a message of 2^32-8 bytes or more, which
    is never received as a whole (C23_huge_stalls).

    No proofs in this file. *)
From Coq Require Import ZArith List Bool.
From Verif Require Import Base WireModel.
Import ListNotations.
Local Open Scope Z_scope.

(** what a handler can see of a message: segCmd, peerBE, peerVersion and segBuf *)
Record msg := { m_cmd : Z; m_be : bool; m_ver : Z; m_body : list Z }.

Section Conn.
  Variable H : Type.
  (** handle_XX(); None: the connection is ended.  The bool is sendBE. *)
  Variable handle : H -> bool -> msg -> option H.
  Variable is_client : bool.
  (** ConnBase::readahead, src/conn.cpp:60-68 *)
  Variable readahead : Z.

  (** ConnBase, src/conn.h:16-51, and the two watermarks.  [l_rx]: the receive buffer. *)
  Record link := {
    l_up : bool; l_send : bool; l_peer : bool; l_ver : Z; l_expect : bool; l_segcmd : Z; l_seg : list Z;
    l_rx : list Z; l_low : Z; l_high : Z
  }.
  (** src/conn.cpp:29-45, connect() :51-81 *)
  Definition new_link (send : bool) : link :=
    {| l_up := true; l_send := send; l_peer := true; l_ver := 0; l_expect := false; l_segcmd := 255; l_seg := [];
       l_rx := []; l_low := 8; l_high := readahead |}.

  (** bev.reset() *)
  Definition closed (c : link) : link :=
    {| l_up := false; l_send := l_send c; l_peer := l_peer c; l_ver := l_ver c; l_expect := l_expect c; l_segcmd := l_segcmd c; l_seg := l_seg c;
       l_rx := []; l_low := 0; l_high := 0 |}.
  Definition byte (i : nat) (c : link) : Z := nth i (l_rx c) 0.
  Definition flag (f : Z) (x : Z) : bool := negb (Z.land x f =? 0).

  (** the commands with a CASE, src/conn.cpp:260-281 *)
  Definition known (cmd : Z) : bool := existsb (Z.eqb cmd) [2; 1; 9; 3; 4; 5; 7; 8; 10; 11; 12; 13; 20; 21; 15; 17; 18].

  (** FixedBuf L(peerBE, header+4, 4); from_wire(L, len); src/conn.cpp:199-203 *)
  Definition length_of (host : bool) (be : bool) (c : link) : Z :=
    fst (from_wire_u host 4 0 (RB (firstn 4 (skipn 4 (l_rx c))) be false)).

  Inductive turned := Wait (c : link) | Next (c : link) (h : H) (o : list msg).

  (** one round of the loop, src/conn.cpp:153-291.  [Wait]: leaves the loop, with
      the watermarks set at :205-213 or :295-298.  [host]: byte order of this host. *)
  Definition turn (host : bool) (c : link) (h : H) : turned :=
    if zlen (l_rx c) <? 8 then
      Wait {| l_up := l_up c; l_send := l_send c; l_peer := l_peer c; l_ver := l_ver c; l_expect := l_expect c; l_segcmd := l_segcmd c; l_seg := l_seg c;
              l_rx := l_rx c; l_low := 8; l_high := readahead |}
    else
      let flags := byte 2 c in
      if negb (byte 0 c =? 202) || (byte 1 c =? 0) || xorb is_client (flag flag_Server flags) then Next (closed c) h []
      else if flag flag_Control flags then
        Next {| l_up := l_up c; l_send := (if byte 3 c =? 2 then flag flag_MSB flags else l_send c); l_peer := l_peer c; l_ver := l_ver c;
                l_expect := l_expect c; l_segcmd := l_segcmd c; l_seg := l_seg c;
                l_rx := skipn 8 (l_rx c); l_low := l_low c; l_high := l_high c |} h []
      else
        let peer := flag flag_MSB flags in
        let ver := byte 1 c in
        let len := length_of host peer c in
        if zlen (l_rx c) - 8 <? len then
          (* 8 + len is computed in 32 bits; size_t of 64 bits *)
          let low := (8 + len) mod 2 ^ 32 in
          Wait {| l_up := l_up c; l_send := l_send c; l_peer := peer; l_ver := ver; l_expect := l_expect c; l_segcmd := l_segcmd c; l_seg := l_seg c;
                  l_rx := l_rx c; l_low := low;
                  l_high := (if low <? 2 ^ 64 - 1 - readahead then low + readahead else low) |}
        else
          let body := firstn (Z.to_nat len) (skipn 8 (l_rx c)) in
          let rx := skipn (Z.to_nat len) (skipn 8 (l_rx c)) in
          let seg := l_seg c ++ body in
          let bits := Z.land flags flag_SegMask in
          let cont := flag flag_SegLast flags in
          let c1 := {| l_up := l_up c; l_send := l_send c; l_peer := peer; l_ver := ver; l_expect := l_expect c; l_segcmd := l_segcmd c; l_seg := seg;
                       l_rx := rx; l_low := l_low c; l_high := l_high c |} in
          if xorb cont (l_expect c) || (cont && negb (byte 3 c =? l_segcmd c)) then Next (closed c1) h []
          else
            let cmd := if (bits =? 0) || (bits =? flag_SegFirst) then byte 3 c else l_segcmd c in
            if (bits =? 0) || (bits =? flag_SegLast) then
              let m := {| m_cmd := cmd; m_be := peer; m_ver := ver; m_body := seg |} in
              let c2 := {| l_up := l_up c; l_send := l_send c; l_peer := peer; l_ver := ver; l_expect := false; l_segcmd := cmd; l_seg := [];
                           l_rx := rx; l_low := l_low c; l_high := l_high c |} in
              if known cmd then
                match handle h (l_send c) m with
                | Some h' => Next c2 h' [m]
                | None => Next (closed c2) h [m]
                end
              else Next c2 h []
            else
              Next {| l_up := l_up c; l_send := l_send c; l_peer := peer; l_ver := ver; l_expect := true; l_segcmd := cmd; l_seg := seg;
                      l_rx := rx; l_low := l_low c; l_high := l_high c |} h [].

  (** the loop; each round but the last takes 8 bytes at least *)
  Fixpoint loop (fuel : nat) (host : bool) (c : link) (h : H) : link * H * list msg :=
    match fuel with
    | O => (c, h, [])
    | S n =>
      if l_up c then
        match turn host c h with
        | Wait c' => (c', h, [])
        | Next c' h' o => let '(c2, h2, o2) := loop n host c' h' in (c2, h2, o ++ o2)
        end
      else (c, h, [])
    end.
  (** ConnBase::bevRead() *)
  Definition bev_read (host : bool) (c : link) (h : H) : link * H * list msg := loop (S (S (length (l_rx c)))) host c h.

  Definition more (b : list Z) (c : link) : link :=
    if l_up c then
      {| l_up := l_up c; l_send := l_send c; l_peer := l_peer c; l_ver := l_ver c; l_expect := l_expect c; l_segcmd := l_segcmd c; l_seg := l_seg c;
         l_rx := l_rx c ++ b; l_low := l_low c; l_high := l_high c |}
    else c.
  (** [b] was read from the socket *)
  Definition feed (host : bool) (c : link) (h : H) (b : list Z) : link * H * list msg :=
    let c1 := more b c in
    if negb (l_up c) then (c, h, [])
    else if zlen (l_rx c1) <? l_low c1 then (c1, h, [])
    else bev_read host c1 h.
  Fixpoint feeds (host : bool) (c : link) (h : H) (bs : list (list Z)) : link * H * list msg :=
    match bs with
    | [] => (c, h, [])
    | b :: bs' =>
      let '(c1, h1, o1) := feed host c h b in
      let '(c2, h2, o2) := feeds host c1 h1 bs' in (c2, h2, o1 ++ o2)
    end.
End Conn.

(** ConnBase::enqueueTxBody(), src/conn.cpp:89-101: the bytes sent.  to_evbuf(Header):
    src/evhelper.cpp, an EvOutBuf and to_wire(Header). *)
Definition enqueue (host : bool) (is_client be : bool) (cmd : Z) (body : list Z) : list Z :=
  wd (to_wire_header host (Header cmd (if is_client then 0 else flag_Server) 0 (u_cast 4 (zlen body))) (WB [] None be false)) ++ body.
