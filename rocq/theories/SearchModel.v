(** Model of searching for channels by name.
    Client: the ring of search buckets, ContextImpl::tickSearch() (src/client.cpp:1011-1206), tickSearchS(),
    initialSearchS() (:1208-1240), poke() (:710-733), the places where a channel enters the ring
    (Channel::build() :377, Channel::disconnect() :205-212, src/clientconn.cpp:379-380), and replies,
    procSearchReply() (:824-919) and onSearch() (:921-978).
    Server: Server::Pvt::onSearch() (src/server.cpp:670-752), ServerConn::handle_SEARCH()
    (src/serverchan.cpp:173-256) and the beacon of doBeacons() (src/server.cpp:754-777).

    Simplifications: every event runs on the one worker thread of the context, as in the code.  A channel is
    named by its identifier (cid), unique among channels.  Of a channel's state only whether it is Searching
    is kept.  Channels pinned to one server are never put in the ring and are not modelled.  sendto() and the
    connections to name servers are represented by the bytes handed to them.

    No proofs in this file. *)
From Coq Require Import ZArith List Bool.
From Verif Require Import Base WireModel UdpModel.
Import ListNotations.
Local Open Scope Z_scope.

(** src/client.cpp:44, :51, :74 *)
Definition nBuckets : nat := 30.
Definition maxSearchPayload : Z := 1400.
Definition search_seq : Z := 0x66696e64.

(** ** Client: the ring *)
(** Channel, src/clientimpl.h:170-210: name, state==Searching, nSearch *)
Record chan := Chan { ch_name : str; ch_searching : bool; ch_nsearch : nat }.
(** ContextImpl, src/clientimpl.h:285-300.  [chans]: the channels which still exist, by cid.  The buckets
    hold weak references: cids *)
Record ctx := Ctx { cur : nat; initial : list Z; buckets : list (list Z); chans : Z -> option chan; sched : bool; npoked : nat }.
(** ContextImpl::ContextImpl(), src/client.cpp:545 *)
Definition new_ctx : ctx := Ctx 0 [] (repeat [] nBuckets) (fun _ => None) false 0.
Definition set_chan (c : ctx) (id : Z) (x : option chan) : ctx :=
  Ctx (cur c) (initial c) (buckets c) (fun i => if i =? id then x else chans c i) (sched c) (npoked c).
Definition set_buckets (c : ctx) (b : list (list Z)) : ctx := Ctx (cur c) (initial c) b (chans c) (sched c) (npoked c).
(** searchBuckets[i].push_back(id) *)
Fixpoint push_at (i : nat) (id : Z) (b : list (list Z)) : list (list Z) :=
  match b, i with
  | [], _ => []
  | l :: b', O => (l ++ [id]) :: b'
  | l :: b', S i' => l :: push_at i' id b'
  end.
Fixpoint clear_at (i : nat) (b : list (list Z)) : list (list Z) :=
  match b, i with
  | [], _ => []
  | _ :: b', O => [] :: b'
  | l :: b', S i' => l :: clear_at i' b'
  end.

Inductive kind := Check | Initial | Discover.

(** the message up to the channel count, src/client.cpp:1039-1065.  The 8 bytes of the header are filled in
    later *)
Definition start_msg (host : bool) (port : Z) (discover : bool) : wbuf :=
  let w := WB (repeat 0 8) (Some (0x10000 - 8)) true false in
  let w := to_wire_u host 4 search_seq w in
  let w := to_wire_u host 1 (if discover then search_mustreply else 0) w in
  let w := to_wire_u host 2 0 (to_wire_u host 1 0 w) in
  let w := to_wire_u host 4 0 (to_wire_u host 4 0 (to_wire_u host 4 0 (to_wire_u host 4 0 w))) in
  let w := to_wire_u host 2 port w in
  if discover then to_wire_u host 1 0 w else to_wire_cstr host t_tcp (to_wire_u host 1 1 w).
(** overwriting bytes already written *)
Definition patch (p : nat) (l d : list Z) : list Z := firstn p d ++ l ++ skipn (p + length l) d.

(** where a channel goes next, src/client.cpp:1111-1125: [n]: the size of the ring *)
Definition next_bucket (idx ninc : nat) (b : list (list Z)) : nat :=
  let n := length b in
  let next := ((idx + ninc) mod n)%nat in
  let nextnext := ((next + 1) mod n)%nat in
  let nextN := length (nth next b []) in
  let nextnextN := length (nth nextnext b []) in
  if (nextnextN <? nextN)%nat && (100 <? nextN - nextnextN)%nat then nextnext else next.

(** the inner loop, src/client.cpp:1074-1131: (what is left of the bucket, message, entries written, context) *)
Fixpoint fill (host : bool) (k : kind) (poked : bool) (idx : nat) (bucket : list Z) (w : wbuf) (out : list (Z * str)) (c : ctx)
  : list Z * wbuf * list (Z * str) * ctx :=
  match bucket with
  | [] => ([], w, out, c)
  | id :: rest =>
    match chans c id with
    | Some x =>
      if ch_searching x then
        let w1 := to_wire_str host (ch_name x) (to_wire_u host 4 id w) in
        if werr w1 then fill host k poked idx rest w1 out c                       (* drop it on the floor *)
        else if (maxSearchPayload <? zlen (wd w1)) && negb (is_nil out) then (bucket, w, out, c)
        else
          let nsearch := match k, poked with Check, false => Nat.min (length (buckets c)) (ch_nsearch x + 1) | _, _ => ch_nsearch x end in
          let ninc := match k, poked with Check, false => nsearch | _, _ => 0%nat end in
          let next := next_bucket idx ninc (buckets c) in
          let c1 := set_chan c id (Some (Chan (ch_name x) true nsearch)) in
          let c2 := set_buckets c1 (push_at next id (buckets c1)) in
          fill host k poked idx rest w1 (out ++ [(id, ch_name x)]) c2
      else fill host k poked idx rest w out c
    | None => fill host k poked idx rest w out c
    end
  end.

(** one message: the channels in it, and the bytes as for a broadcast *)
Record packet := Packet { p_entries : list (Z * str); p_bytes : list Z }.
(** completing the message, src/client.cpp:1137-1145.  [pcount]: where the count is *)
Definition finish (host : bool) (pcount : nat) (out : list (Z * str)) (w : wbuf) : packet :=
  let d := patch pcount (wd (to_wire_u host 2 (zlen out) (WB [] (Some 2) true false))) (wd w) in
  Packet out (patch 0 (wd (to_wire_header host (Header cmd_search 0 0 (zlen d - 8)) (WB [] (Some 8) true false))) d).
(** the flags are byte 12, the port bytes 32 and 33, of the message: as sent to a unicast address (:1148-1155),
    and to a name server (:1178-1182) *)
Definition for_unicast (d : list Z) : list Z := patch 12 [Z.lor (nth 12 d 0) search_unicast] d.
Definition for_tcp (d : list Z) : list Z := patch 32 [0; 0] (for_unicast d).

(** the outer loop, src/client.cpp:1035-1205.  None: assert() fails *)
Fixpoint send_all (fuel : nat) (host : bool) (port : Z) (k : kind) (poked : bool) (idx : nat) (bucket : list Z) (c : ctx)
  : option (list packet * ctx) :=
  match fuel, bucket with
  | S f, _ :: _ =>
    let w0 := start_msg host port false in
    let pcount := length (wd w0) in
    let '(rest, w, out, c1) := fill host k poked idx bucket (wpush [0; 0] w0) [] c in
    if werr w then None
    else if is_nil out then Some ([], c1)
    else match send_all f host port k poked idx rest c1 with
         | Some (ps, c2) => Some (finish host pcount out w :: ps, c2)
         | None => None
         end
  | _, _ => Some ([], c)
  end.
(** tickSearch(), src/client.cpp:1011-1034 *)
Definition tick_search (host : bool) (port : Z) (k : kind) (poked : bool) (c : ctx) : option (list packet * ctx) :=
  match k with
  | Check =>
    let idx := cur c in
    let bucket := nth idx (buckets c) [] in
    let c1 := Ctx ((cur c + 1) mod length (buckets c)) (initial c) (clear_at idx (buckets c)) (chans c) (sched c) (npoked c) in
    send_all (length bucket) host port k poked idx bucket c1
  | Initial =>
    let c1 := Ctx (cur c) [] (buckets c) (chans c) (sched c) (npoked c) in
    send_all (length (initial c)) host port k poked (cur c) (initial c) c1
  | Discover =>
    let w0 := start_msg host port true in
    Some ([finish host (length (wd w0)) [] (wpush [0; 0] w0)], c)
  end.

(** ** Client: events *)
Inductive event :=
| Build (id : Z) (name : str)      (* Channel::build() of a new channel, src/client.cpp:366-380 *)
| InitialTimer                     (* initialSearchS(), :1228-1240 *)
| SearchTimer                      (* tickSearchS(), :1208-1226 *)
| Ping                             (* a discovery ping *)
| Poke                             (* poke(), :710-733, when not held off *)
| Found (id : Z)                   (* a server claims the channel, :900-908 *)
| Lost (id : Z) (connecting : bool)(* Channel::disconnect(), :150-212, or creation refused, clientconn.cpp:379-380 *)
| Gone (id : Z).                   (* the channel is destroyed *)
Definition step (host : bool) (port : Z) (c : ctx) (e : event) : option (list packet * ctx) :=
  match e with
  | Build id name =>
    match chans c id with
    | Some _ => Some ([], c)
    | None =>
      let c1 := set_chan c id (Some (Chan name true 0)) in
      Some ([], Ctx (cur c1) (initial c1 ++ [id]) (buckets c1) (chans c1) true (npoked c1))
    end
  | InitialTimer =>
    if sched c then tick_search host port Initial false (Ctx (cur c) (initial c) (buckets c) (chans c) false (npoked c))
    else Some ([], c)
  | SearchTimer =>
    let poked := negb (npoked c =? 0)%nat in
    tick_search host port Check poked (Ctx (cur c) (initial c) (buckets c) (chans c) (sched c) (pred (npoked c)))
  | Ping => tick_search host port Discover false c
  | Poke => Some ([], Ctx (cur c) (initial c) (buckets c) (chans c) (sched c) (if (npoked c =? 0)%nat then nBuckets else npoked c))
  | Found id =>
    match chans c id with
    | Some x => Some ([], set_chan c id (Some (Chan (ch_name x) false (ch_nsearch x))))
    | None => Some ([], c)
    end
  | Lost id connecting =>
    match chans c id with
    | Some x =>
      let c1 := set_chan c id (Some (Chan (ch_name x) true (ch_nsearch x))) in
      Some ([], set_buckets c1 (push_at ((cur c1 + (if connecting then 10 else 0)) mod nBuckets) id (buckets c1)))
    | None => Some ([], c)
    end
  | Gone id => Some ([], set_chan c id None)
  end.
(** a history: the packets of each event, and the context afterwards *)
Fixpoint run (host : bool) (port : Z) (c : ctx) (es : list event) : option (list (list packet) * ctx) :=
  match es with
  | [] => Some ([], c)
  | e :: es' =>
    match step host port c e with
    | None => None
    | Some (ps, c1) =>
      match run host port c1 es' with
      | None => None
      | Some (pss, c2) => Some (ps :: pss, c2)
      end
    end
  end.

(** ** Server: the reply *)
(** the sources are asked in order, each may claim any of the names, src/server.cpp:697-706 *)
Fixpoint ask (sources : list (list str -> list bool)) (names : list str) (claims : list bool) : list bool :=
  match sources with
  | [] => claims
  | s :: l => ask l names (map (fun p => fst p || snd p) (combine claims (s names)))
  end.
Fixpoint claimed_ids (names : list (str * Z)) (claims : list bool) : list Z :=
  match names, claims with
  | (_, id) :: n', cl :: c' => if cl then id :: claimed_ids n' c' else claimed_ids n' c'
  | _, _ => []
  end.
Fixpoint to_wire_ids (host : bool) (l : list Z) (w : wbuf) : wbuf :=
  match l with [] => w | id :: l' => to_wire_ids host l' (to_wire_u host 4 id w) end.
(** SockAddr::any(AF_INET) *)
Definition any4 : sockaddr := SA_in [0; 0; 0; 0].
(** the body of the reply, src/server.cpp:726-743 and src/serverchan.cpp:234-250 *)
Definition reply_body (host : bool) (guid : list Z) (id port : Z) (ids : list Z) (w : wbuf) : wbuf :=
  let w := to_wire_addr [] any4 (to_wire_u host 4 id (to_wire_mem guid false w)) in
  let w := to_wire_cstr host t_tcp (to_wire_u host 2 port w) in
  let w := to_wire_u host 1 (if is_nil ids then 0 else 1) w in
  to_wire_ids host ids (to_wire_u host 2 (zlen ids) w).
Definition cmd_search_response : Z := 0x04.
(** Server::Pvt::onSearch(), src/server.cpp:670-752: [ignored]: the sender is on the ignore list *)
Definition server_search (host : bool) (ignored : bool) (guid : list Z) (tcp_port : Z) (sources : list (list str -> list bool)) (s : search)
  : option (list Z) :=
  if ignored then None
  else
    let names := map fst (s_names s) in
    let claims := ask sources names (map (fun _ => false) names) in
    let ids := claimed_ids (s_names s) claims in
    if is_nil ids && negb (s_mustreply s) then None
    else
      let d := wd (reply_body host guid (s_id s) tcp_port ids (WB (repeat 0 8) None true false)) in
      Some (patch 0 (wd (to_wire_header host (Header cmd_search_response flag_Server 0 (zlen d - 8)) (WB [] (Some 8) true false))) d).

(** the names in ServerConn::handle_SEARCH(), src/serverchan.cpp:184-206.  The loop over protocols ends at
    "tcp" *)
Fixpoint tcp_protos (host : bool) (n : nat) (b : rbuf) : rbuf :=
  match n with
  | O => b
  | S n' =>
    if rgood b then
      let '(p, b1) := from_wire_str host [] b in
      if str_eqb p t_tcp then b1 else tcp_protos host n' b1
    else b
  end.
Fixpoint tcp_names (host : bool) (n : nat) (b : rbuf) : list (str * Z) * rbuf :=
  match n with
  | O => ([], b)
  | S n' =>
    let '(id, b1) := from_wire_u host 4 0 b in
    let '(name, b2) := from_wire_str host [] b1 in
    let '(l, b3) := tcp_names host n' b2 in
    ((c_str name, id) :: l, b3)
  end.
(** handle_SEARCH(): None: decode error, the connection is closed.  Some None: no reply *)
Definition tcp_search (host be : bool) (guid : list Z) (port : Z) (sources : list (list str -> list bool)) (b : rbuf) : option (option (list Z)) :=
  let '(id, b1) := from_wire_u host 4 0 b in
  let '(flags, b2) := from_wire_u host 1 0 b1 in
  let must := negb (Z.land flags search_mustreply =? 0) in
  let b3 := rskip 21 b2 in
  let '(np, b4) := from_wire_size host 0 false b3 in
  let b5 := tcp_protos host (Z.to_nat np) b4 in
  let '(n, b6) := from_wire_u host 2 0 b5 in
  let '(l, b7) := tcp_names host (Z.to_nat n) b6 in
  if negb (rgood b7) then None
  else
    let names := map fst l in
    let claims := ask sources names (map (fun _ => false) names) in
    let ids := claimed_ids l claims in
    if is_nil ids && negb must then Some None
    else Some (Some (wd (reply_body host guid id port ids (WB [] None be false)))).

(** doBeacons(), src/server.cpp:754-777 *)
Definition beacon_msg (host : bool) (guid : list Z) (seq change port : Z) : list Z :=
  let w := to_wire_mem guid false (WB (repeat 0 8) None true false) in
  let w := to_wire_u host 2 change (to_wire_u host 1 seq (to_wire_u host 1 0 w)) in
  let w := to_wire_cstr host t_tcp (to_wire_u host 2 port (to_wire_addr [] any4 w)) in
  let d := wd (to_wire_u host 1 255 w) in
  patch 0 (wd (to_wire_header host (Header cmd_beacon flag_Server 0 (zlen d - 8)) (WB [] (Some 8) true false))) d.

(** ** Client: the reply *)
(** the loop of procSearchReply(), src/client.cpp:881-892: the ids looked up *)
Fixpoint reply_ids (host : bool) (n : nat) (b : rbuf) : list Z * rbuf :=
  match n with
  | O => ([], b)
  | S n' =>
    let '(id, b1) := from_wire_u host 4 0 b in
    if rgood b1 then let '(l, b2) := reply_ids host n' b1 in (id :: l, b2) else ([], b1)
  end.
(** what a reply does: treated as a beacon; channels, by id, said to be found at a server *)
Record reply := Reply { r_beacon : option beacon; r_guid : list Z; r_server : sockaddr; r_port : Z; r_ids : list Z }.
(** RThrow: setPort() of an address of no family.  The flag: M.good() afterwards *)
Inductive reply_outcome := RThrow | RDone (r : option reply) (good_ : bool).
(** procSearchReply(), src/client.cpp:824-919.  [src], [sport]: the sender; [discovering]: there are
    discoverers *)
Definition proc_reply (host : bool) (istcp discovering : bool) (ignore : list (list Z)) (src : sockaddr) (sport version : Z) (b0 : rbuf) : reply_outcome :=
  let '(g0, b1) := from_wire_mem 12 false b0 in
  let guid := match g0 with Some g => g | None => repeat 0 12 end in
  let '(seq, b2) := from_wire_u host 4 0 b1 in
  let '(a, b3) := from_wire_addr SA_unspec b2 in
  let serv := if is_any a then src else a in
  let '(port0, b4) := from_wire_u host 2 0 b3 in
  let port := if istcp && (port0 =? 0) then sport else port0 in
  if is_unspec serv then RThrow
  else
    let '(proto, b5) := from_wire_str host [] b4 in
    let '(found, b6) := from_wire_u host 1 0 b5 in
    let '(n, b7) := from_wire_u host 2 0 b6 in
    if rgood b7 && existsb (str_eqb guid) ignore then RDone None true
    else
      let bc := if rgood b7 && negb istcp && (seq =? search_seq) && (n =? 0) && (found =? 0) && discovering
                then Some {| b_version := version; b_guid := guid; b_server := serv; b_port := port; b_proto := proto |} else None in
      if (found =? 0) || negb (str_eqb proto t_tcp) then RDone (Some (Reply bc guid serv port [])) (rgood b7)
      else
        let '(ids, b8) := reply_ids host (Z.to_nat n) b7 in
        RDone (Some (Reply bc guid serv port ids)) (rgood b8).
(** ContextImpl::onSearch(), src/client.cpp:945-978, of a received datagram *)
Definition client_reply (host discovering : bool) (ignore : list (list Z)) (src : sockaddr) (sport : Z) (d : list Z) : reply_outcome :=
  let '(h, b) := from_wire_header host (Header 0 0 0 0) (RB d true false) in
  if negb (rgood b) || negb (Z.land (h_flags h) (Z.lor flag_Control flag_SegMask) =? 0) then RDone None true
  else if zlen (rd b) <? h_len h then RDone None true
  else if h_cmd h =? cmd_search_response then proc_reply host false discovering ignore src sport (h_version h) b
  else RDone None false.
(** the channels which then connect, src/client.cpp:886-908: those which exist and are Searching *)
Fixpoint found_events (c : ctx) (ids : list Z) : list Z :=
  match ids with
  | [] => []
  | id :: l =>
    match chans c id with
    | Some x => if ch_searching x then id :: found_events (set_chan c id (Some (Chan (ch_name x) false (ch_nsearch x)))) l else found_events c l
    | None => found_events c l
    end
  end.
