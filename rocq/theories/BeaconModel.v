(** Model of the tracking of servers by a client: ContextImpl::onBeacon() (src/client.cpp:747-822),
    tickBeaconClean() (:1242-1272), poke() (:710-733), the part of tickSearchS() which concerns poke()
    (:1208-1220), and discover(): DiscoverBuilder::exec(), Discovery::cancel() and serverEvent() of
    src/clientdiscover.cpp.

    Times are of the local clock (which may step), in nanoseconds since the EPICS epoch; ages are exact
    instead of rounded to a double.  The map beaconTrack is a list in order of insertion instead of in
    order of address, so that the order of the events of one tickBeaconClean() is not modelled.
    Addresses are kept apart from ports.  A Timeout without a peer has [None].
    onBeacon() and tickBeaconClean() run on the UDP worker, under pokeLock.
    Simplification: discoverers is only changed between them.  (It is changed on the TCP worker and not
    under pokeLock.)  Callbacks do not throw.

    No proofs in this file. *)
From Coq Require Import ZArith List Bool.
From Verif Require Import Base WireModel UdpModel SearchModel.
Import ListNotations.
Local Open Scope Z_scope.

(** key_type of beaconTrack, src/clientimpl.h: std::pair<SockAddr, std::string> *)
Definition endpoint : Type := sockaddr * Z.
Definition key : Type := endpoint * str.
(** operator< of SockAddr: by family, address and port *)
Definition sockaddr_eqb (a b : sockaddr) : bool :=
  match a, b with
  | SA_in x, SA_in y => str_eqb x y
  | SA_in6 x, SA_in6 y => str_eqb x y
  | SA_unspec, SA_unspec => true
  | _, _ => false
  end.
Definition key_eqb (a b : key) : bool :=
  sockaddr_eqb (fst (fst a)) (fst (fst b)) && (snd (fst a) =? snd (fst b)) && str_eqb (snd a) (snd b).

(** struct BeaconInfo, src/clientimpl.h *)
Record info := Info { i_guid : list Z; i_version : Z; i_time : Z; i_sender : endpoint }.
(** struct Discovered, src/pvxs/client.h:956-968 *)
Record discovered := Discovered { d_online : bool; d_version : Z; d_peer : option endpoint; d_proto : str; d_server : endpoint;
                                  d_guid : list Z; d_time : Z }.

Record ctx := Ctx { track : list (key * info); discs : list Z; npoked : nat; last_poke : Z }.
Definition new_ctx : ctx := Ctx [] [] 0 0.

Inductive event :=
| Rx (now : Z) (src : endpoint) (b : beacon)   (* a beacon from UDP, or a reply to a ping *)
| Clean (now : Z)                              (* the beacon clean timer *)
| HurryUp (now : Z)                            (* Context::hurryUp() *)
| Tick                                         (* the search timer *)
| Start (op : Z)                               (* discover().exec(), on the TCP worker *)
| Stop (op : Z).                               (* cancel(), or the last reference dropped *)
(** [Told ops d]: the callback of each of [ops] is called with [d];
    [Hurry]: the search timer is set to expire now *)
Inductive out := Told (ops : list Z) (d : discovered) | Hurry.

Definition sec : Z := 1000000000.
(** constants, src/client.cpp:38-76 *)
Definition track_limit : Z := 20000.
Definition clean_interval : Z := 180 * sec.
Definition poke_holdoff : Z := 30 * sec.

Fixpoint find (k : key) (l : list (key * info)) : option info :=
  match l with
  | [] => None
  | (k', i) :: l' => if key_eqb k k' then Some i else find k l'
  end.
Fixpoint set (k : key) (i : info) (l : list (key * info)) : list (key * info) :=
  match l with
  | [] => [(k, i)]
  | (k', i') :: l' => if key_eqb k k' then (k', i) :: l' else (k', i') :: set k i l'
  end.

(** serverEvent(), src/clientdiscover.cpp:101-112 *)
Definition server_event (c : ctx) (d : discovered) : list out := [Told (discs c) d].

(** poke(), src/client.cpp:710-733 *)
Definition poke (now : Z) (c : ctx) : list out * ctx :=
  match npoked c with
  | S _ => ([], c)
  | O => if now - last_poke c <? poke_holdoff then ([], c)
         else ([Hurry], Ctx (track c) (discs c) nBuckets now)
  end.

(** onBeacon(), src/client.cpp:747-822 *)
Definition on_beacon (now : Z) (src : endpoint) (b : beacon) (c : ctx) : list out * ctx :=
  let server := (b_server b, b_port b) in
  let k := (server, b_proto b) in
  let cur := find k (track c) in
  match cur with
  | None =>
    if zlen (track c) >=? track_limit then ([], c)
    else
      let c1 := Ctx (set k (Info (b_guid b) (b_version b) now src) (track c)) (discs c) (npoked c) (last_poke c) in
      let o := server_event c1 (Discovered true (b_version b) (Some src) (b_proto b) server (b_guid b) now) in
      let '(o', c2) := poke now c1 in (o ++ o', c2)
  | Some i =>
    let change := negb (str_eqb (i_guid i) (b_guid b)) || negb (i_version i =? b_version b) in
    let o1 := if change then server_event c (Discovered false (i_version i) (Some src) (snd k) (fst k) (i_guid i) now) else [] in
    let c1 := Ctx (set k (Info (b_guid b) (b_version b) now src) (track c)) (discs c) (npoked c) (last_poke c) in
    if change then
      let o2 := server_event c1 (Discovered true (b_version b) (Some src) (b_proto b) server (b_guid b) now) in
      let '(o3, c2) := poke now c1 in (o1 ++ o2 ++ o3, c2)
    else (o1, c1)
  end.

(** tickBeaconClean(), src/client.cpp:1242-1272 *)
Definition stale (now : Z) (i : info) : bool :=
  let age := now - i_time i in (age <? - 15 * sec) || (age >? 2 * clean_interval).
Fixpoint clean_all (now : Z) (c : ctx) (l : list (key * info)) : list out * list (key * info) :=
  match l with
  | [] => ([], [])
  | (k, i) :: l' =>
    let '(o, r) := clean_all now c l' in
    if stale now i then (server_event c (Discovered false (i_version i) None (snd k) (fst k) (i_guid i) now) ++ o, r)
    else (o, (k, i) :: r)
  end.

(** DiscoverBuilder::exec(), src/clientdiscover.cpp:78-96; Discovery::_cancel(), :43-51, and the deleter, :69-78.
    Simplification: the ping sent for the first one is left out (see SearchModel.v). *)
Definition step (c : ctx) (e : event) : list out * ctx :=
  match e with
  | Rx now src b => on_beacon now src b c
  | Clean now => let '(o, l) := clean_all now c (track c) in (o, Ctx l (discs c) (npoked c) (last_poke c))
  | HurryUp now => poke now c
  | Tick => ([], Ctx (track c) (discs c) (pred (npoked c)) (last_poke c))
  | Start op => ([], Ctx (track c) (if existsb (Z.eqb op) (discs c) then discs c else discs c ++ [op]) (npoked c) (last_poke c))
  | Stop op => ([], Ctx (track c) (filter (fun x => negb (x =? op)) (discs c)) (npoked c) (last_poke c))
  end.
