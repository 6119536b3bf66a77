(** Model of the decoder of UDP datagrams: UDPCollector::handle_one() after recvfrom(),
    process_one() and forwardM(), src/udp_collector.cpp:227-482.

    Memory is explicit, since names are used in place: NULs are written into the receive buffer.
    [mem] is that buffer from the first byte of the datagram, up to and including the one byte after the
    longest datagram which is always there.  An access outside of it is [UB].

    [host]: the host is big endian.  Ports of socket addresses are kept apart from them.
    Simplification: which listeners get a message (by destination address) is left out, and so is
    logging.

    No proofs in this file. *)
From Coq Require Import ZArith List Bool.
From Verif Require Import Base WireModel.
Import ListNotations.
Local Open Scope Z_scope.

(** FixedBuf M over the bytes [.., fin) of [mem]: [buf] holds the bytes not yet read *)
Record cur := Cur { mem : list Z; fin : nat; buf : rbuf }.
(** M.save() *)
Definition pos (c : cur) : nat := (fin c - length (rd (buf c)))%nat.
Definition good (c : cur) : bool := negb (rerr (buf c)).
Definition read {A} (f : rbuf -> A * rbuf) (c : cur) : A * cur :=
  let '(a, b) := f (buf c) in (a, Cur (mem c) (fin c) b).
Definition skip (n : Z) (c : cur) : cur := Cur (mem c) (fin c) (rskip n (buf c)).
Fixpoint upd (p : nat) (v : Z) (l : list Z) : list Z :=
  match l, p with
  | [], _ => []
  | _ :: l', O => v :: l'
  | x :: l', S p' => x :: upd p' v l'
  end.
(** a store to address [p]; None: outside of the buffer *)
Definition poke (p : nat) (v : Z) (c : cur) : option cur :=
  if (p <? length (mem c))%nat then
    let m := upd p v (mem c) in
    let n := length (rd (buf c)) in
    Some (Cur m (fin c) (RB (firstn n (skipn (fin c - n) m)) (rbe (buf c)) (rerr (buf c))))
  else None.
Fixpoint pokes (p : nat) (l : list Z) (c : cur) : option cur :=
  match l with
  | [] => Some c
  | x :: l' => match poke p x c with Some c' => pokes (S p) l' c' | None => None end
  end.
(** the C string at address [p]; None: it runs off the buffer *)
Fixpoint cstring (l : list Z) : option str :=
  match l with
  | [] => None
  | x :: l' => if x =? 0 then Some [] else match cstring l' with Some s => Some (x :: s) | None => None end
  end.
Fixpoint strings (m : list Z) (l : list (nat * Z)) : option (list (str * Z)) :=
  match l with
  | [] => Some []
  | (p, id) :: l' =>
    match cstring (skipn p m), strings m l' with
    | Some s, Some r => Some ((s, id) :: r)
    | _, _ => None
    end
  end.

(** SockAddr::isAny(), src/util.cpp:550-559; isMCast(), :572-581 *)
Definition zeros (l : list Z) : bool := forallb (fun x => x =? 0) l.
Definition is_any (a : sockaddr) : bool :=
  match a with SA_in q => zeros q | SA_in6 q => zeros q | SA_unspec => false end.
Definition is_mcast (a : sockaddr) : bool :=
  match a with SA_in (x :: _) => (224 <=? x) && (x <? 240) | SA_in6 (x :: _) => x =? 255 | _ => false end.
Definition is_unspec (a : sockaddr) : bool := match a with SA_unspec => true | _ => false end.
Definition is_in (a : sockaddr) : bool := match a with SA_in _ => true | _ => false end.
(** lo_mcast_addr, src/udp_collector.cpp:140: "224.0.0.128"; compare(.., false)==0 *)
Definition lo_mcast : list Z := [224; 0; 0; 128].
Definition is_lo_mcast (a : sockaddr) : bool := match a with SA_in q => str_eqb q lo_mcast | _ => false end.

Definition cmd_beacon : Z := 0x00.
Definition cmd_search : Z := 0x03.
Definition cmd_origin_tag : Z := 0x16.
Definition search_mustreply : Z := 0x01.
Definition search_unicast : Z := 0x80.
Definition t_tcp : str := [116; 99; 112].

(** struct Search and struct Beacon of src/udp_collector.h; the reply of a search goes to [s_server] *)
Record search := { s_version : Z; s_id : Z; s_mustreply : bool; s_server : sockaddr; s_port : Z;
                   s_other : list str; s_names : list (str * Z) }.
Record beacon := { b_version : Z; b_guid : list Z; b_server : sockaddr; b_port : Z; b_proto : str }.
(** members of UDPCollector which outlive a datagram *)
Record coll := { c_server : sockaddr; c_bserver : sockaddr; c_bproto : str; c_guid : list Z; c_id : Z; c_tcp : bool }.
Definition new_coll : coll :=
  {| c_server := SA_unspec; c_bserver := SA_unspec; c_bproto := []; c_guid := repeat 0 12; c_id := 0; c_tcp := false |}.
Inductive origin := Remote | Local | OriginTag.
(** [Abort]: a failed assert(); [Throw]: an exception, logged by handle_static(); [Forward]: sent to
    lo_mcast_addr *)
Inductive outcome := UB | Abort | Throw | Ignore | Forward (l : list Z) | Search_ (s : search) | Beacon_ (b : beacon).

(** the protocols, src/udp_collector.cpp:350-358 *)
Fixpoint protos (host : bool) (n : nat) (tcp : bool) (other : list str) (c : cur) : bool * list str * cur :=
  match n with
  | O => (tcp, other, c)
  | S n' =>
    if good c then
      let '(p, c1) := read (from_wire_str host []) c in
      if str_eqb p t_tcp then protos host n' true other c1
      else protos host n' tcp (if is_nil p then other else other ++ [p]) c1
    else (tcp, other, c)
  end.
(** the names, src/udp_collector.cpp:367-380: addresses of names *)
Fixpoint names (host : bool) (tcp : bool) (n : nat) (acc : list (nat * Z)) (c : cur) : option (list (nat * Z) * cur) :=
  match n with
  | O => Some (acc, c)
  | S n' =>
    if good c then
      let mundge := pos c in
      let '(id, c1) := read (from_wire_u host 4 0xffffffff) c in
      let '(len, c2) := read (from_wire_size host 0 false) c1 in
      match poke mundge 0 c2 with
      | None => None
      | Some c3 =>
        let acc' := if tcp && (len <=? zlen (rd (buf c3))) && good c3 then acc ++ [(pos c3, id)] else acc in
        names host tcp n' acc' (skip len c3)
      end
    else Some (acc, c)
  end.

(** FixedBuf(true, buf, nrx); from_wire(M, head) and the checks, src/udp_collector.cpp:275-295.  [off]:
    the address of the message in [mem] *)
Definition open_ (host : bool) (m : list Z) (off fin_ : nat) : option (header * cur) :=
  let c := Cur m fin_ (RB (firstn (fin_ - off) (skipn off m)) true false) in
  let '(h, c1) := read (from_wire_header host (Header 0 0 0 0)) c in
  if negb (good c1) || negb (Z.land (h_flags h) (Z.lor flag_Control flag_SegMask) =? 0) then None
  else if zlen (rd (buf c1)) <? h_len h then None
  else Some (h, c1).

(** case CMD_SEARCH, src/udp_collector.cpp:299-401.  forwardM() is :463-482 *)
Definition do_search (host : bool) (g : coll) (src dest : sockaddr) (o : origin) (h : header) (c0 : cur) : coll * outcome :=
  let '(id, c1) := read (from_wire_u host 4 (c_id g)) c0 in
  let p_flags := pos c1 in
  let '(fl, c2) := read (from_wire_u host 1 0) c1 in
  let must := negb (Z.land fl search_mustreply =? 0) in
  let c3 := skip 3 c2 in
  let p_addr := pos c3 in
  let '(srv0, c4) := read (from_wire_addr (c_server g)) c3 in
  let '(port, c5) := read (from_wire_u host 2 0) c4 in
  let srv := if is_any srv0 then src else srv0 in
  let g1 := {| c_server := srv; c_bserver := c_bserver g; c_bproto := c_bproto g; c_guid := c_guid g; c_id := id; c_tcp := c_tcp g |} in
  if is_any srv0 && match o with OriginTag => true | _ => false end then (g1, Ignore)
  else if is_unspec srv then (g1, Throw)                                    (* setPort() *)
  else if good c5 && negb (Z.land fl search_unicast =? 0) && is_in dest && negb (is_lo_mcast dest) then
    match o with
    | OriginTag => (g1, Abort)                                              (* assert(buf==...) *)
    | _ =>
      match poke p_flags (Z.land fl (255 - search_unicast)) c5 with
      | None => (g1, UB)
      | Some c6 =>
        match pokes p_addr (wd (to_wire_addr [] srv (WB [] (Some 16) (rbe (buf c6)) false))) c6 with
        | None => (g1, UB)
        | Some c7 =>
          let tag := to_wire_addr [] dest (to_wire_header host (Header cmd_origin_tag 0 0 16) (WB [] (Some 24) true false)) in
          (g1, Forward (wd tag ++ firstn (fin c7) (mem c7)))
        end
      end
    end
  else
    let '(np, c6) := read (from_wire_size host 0 false) c5 in
    let '(tcp, other, c7) := protos host (Z.to_nat np) (c_tcp g) [] c6 in
    let '(nchan, c8) := read (from_wire_u host 2 0) c7 in
    let g2 := {| c_server := srv; c_bserver := c_bserver g; c_bproto := c_bproto g; c_guid := c_guid g; c_id := id; c_tcp := tcp |} in
    match names host tcp (Z.to_nat nchan) [] c8 with
    | None => (g2, UB)
    | Some (l, c9) =>
      if good c9 then
        match poke (pos c9) 0 c9 with
        | None => (g2, UB)
        | Some c10 =>
          match strings (mem c10) l with
          | None => (g2, UB)
          | Some ns =>
            (g2, Search_ {| s_version := h_version h; s_id := id; s_mustreply := must; s_server := srv; s_port := port;
                            s_other := other; s_names := ns |})
          end
        end
      else (g2, Ignore)
    end.

(** case CMD_BEACON, src/udp_collector.cpp:403-429 *)
Definition do_beacon (host : bool) (g : coll) (src : sockaddr) (h : header) (c0 : cur) : coll * outcome :=
  let '(guid0, c1) := read (from_wire_mem 12 false) c0 in
  let guid := match guid0 with Some x => x | None => c_guid g end in
  let c2 := skip 4 c1 in
  let '(srv0, c3) := read (from_wire_addr (c_bserver g)) c2 in
  let '(port, c4) := read (from_wire_u host 2 0) c3 in
  let srv := if is_any srv0 then src else srv0 in
  let g1 := {| c_server := c_server g; c_bserver := srv; c_bproto := c_bproto g; c_guid := guid; c_id := c_id g; c_tcp := c_tcp g |} in
  if is_unspec srv then (g1, Throw)
  else
    let '(proto, c5) := read (from_wire_str host (c_bproto g)) c4 in
    let g2 := {| c_server := c_server g; c_bserver := srv; c_bproto := proto; c_guid := guid; c_id := c_id g; c_tcp := c_tcp g |} in
    if good c5 then (g2, Beacon_ {| b_version := h_version h; b_guid := guid; b_server := srv; b_port := port; b_proto := proto |})
    else (g2, Ignore).

(** process_one(), src/udp_collector.cpp:273-460, for a message within CMD_ORIGIN_TAG: at most one is
    allowed in a datagram *)
Definition process_inner (host : bool) (g : coll) (src dest : sockaddr) (m : list Z) (off fin_ : nat) : coll * outcome :=
  match open_ host m off fin_ with
  | None => (g, Ignore)
  | Some (h, c) =>
    if h_cmd h =? cmd_search then do_search host g src dest OriginTag h c
    else if h_cmd h =? cmd_beacon then do_beacon host g src h c
    else (g, Ignore)
  end.
(** the same for the datagram itself *)
Definition process_one (host : bool) (g : coll) (src dest : sockaddr) (o : origin) (m : list Z) (nrx : nat) : coll * outcome :=
  match open_ host m 0 nrx with
  | None => (g, Ignore)
  | Some (h, c) =>
    if h_cmd h =? cmd_search then do_search host g src dest o h c
    else if h_cmd h =? cmd_beacon then do_beacon host g src h c
    else if h_cmd h =? cmd_origin_tag then
      let '(a, c1) := read (from_wire_addr SA_unspec) c in
      (* head.len-16u: 32 bits, unsigned *)
      let c2 := skip ((h_len h - 16) mod 2 ^ 32) c1 in
      if good c2 && match o with Local => true | _ => false end && is_lo_mcast dest
      then process_inner host g src a (mem c2) (pos c2) nrx
      else (g, Ignore)
    else (g, Ignore)
  end.

(** handle_one() after recvfrom(), src/udp_collector.cpp:256-270: [d] is the datagram, [junk] the rest of
    the receive buffer (never empty), [local]: IfaceMap::is_iface(src) *)
Definition handle_one (host : bool) (g : coll) (src dest : sockaddr) (local : bool) (d junk : list Z) : coll * outcome :=
  if is_mcast src then (g, Ignore)
  else process_one host g src dest (if local then Local else Remote) (d ++ junk) (length d).
