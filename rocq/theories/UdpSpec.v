(** Format of search and beacon datagrams, independent of how they are decoded. *)
From Coq Require Import ZArith List Bool.
From Verif Require Import Base WireModel WireSpec UdpModel.
Import ListNotations.
Local Open Scope Z_scope.

(** a size: one byte, or 254 and four bytes *)
Inductive fmt_size (be : bool) : Z -> list Z -> Prop :=
| size_short : forall n, 0 <= n < 254 -> fmt_size be n [n]
| size_long : forall n e, represents be 4 n e -> fmt_size be n (254 :: e).
(** a string: its size and its bytes; 255 for none *)
Inductive fmt_str (be : bool) : str -> list Z -> Prop :=
| str_bytes : forall s e, fmt_size be (zlen s) e -> fmt_str be s (e ++ s)
| str_null : fmt_str be [] [255].
Inductive fmt_strs (be : bool) : list str -> list Z -> Prop :=
| strs_nil : fmt_strs be [] []
| strs_cons : forall s l e e', fmt_str be s e -> fmt_strs be l e' -> fmt_strs be (s :: l) (e ++ e').
(** the names of a search: identifier, size, bytes *)
Inductive fmt_names (be : bool) : list (str * Z) -> list Z -> Prop :=
| names_nil : fmt_names be [] []
| names_cons : forall s id l e1 e2 e', represents be 4 id e1 -> fmt_size be (zlen s) e2 -> fmt_names be l e' ->
    fmt_names be ((s, id) :: l) (e1 ++ e2 ++ s ++ e').
(** an address: 16 bytes; IPv4 as ::ffff:a.b.c.d *)
Definition v4_prefix : list Z := [0; 0; 0; 0; 0; 0; 0; 0; 0; 0; 255; 255].
Inductive fmt_addr : sockaddr -> list Z -> Prop :=
| addr_v4 : forall q, length q = 4%nat -> fmt_addr (SA_in q) (v4_prefix ++ q)
| addr_v6 : forall e, length e = 16%nat -> firstn 12 e <> v4_prefix -> fmt_addr (SA_in6 e) e.

(** a message: magic, version, flags, command, the size [len] of the body, the body (and perhaps more).
    No control message, no segment; bit 7 of the flags gives the byte order *)
Definition message_len (version : Z) (be : bool) (cmd len : Z) (body d : list Z) : Prop :=
  exists fl e4, d = [202; version; fl; cmd] ++ e4 ++ body /\ version <> 0 /\ Z.land fl 1 = 0 /\ Z.land fl 48 = 0 /\ be = Z.testbit fl 7 /\
    represents be 4 len e4 /\ len <= zlen body.
Definition message (version : Z) (be : bool) (cmd : Z) (body d : list Z) : Prop := exists len, message_len version be cmd len body d.

(** the fields of a search, in order; what follows the last name does not matter *)
Record fields := { f_id : Z; f_flags : Z; f_addr : sockaddr; f_port : Z; f_protos : list str; f_names : list (str * Z) }.
Definition search_body (be : bool) (f : fields) (body : list Z) : Prop :=
  exists e_id resv e_addr e_port e_np e_protos e_n e_names more,
    body = e_id ++ [f_flags f] ++ resv ++ e_addr ++ e_port ++ e_np ++ e_protos ++ e_n ++ e_names ++ more /\
    represents be 4 (f_id f) e_id /\ length resv = 3%nat /\ fmt_addr (f_addr f) e_addr /\ represents be 2 (f_port f) e_port /\
    fmt_size be (zlen (f_protos f)) e_np /\ fmt_strs be (f_protos f) e_protos /\
    represents be 2 (zlen (f_names f)) e_n /\ fmt_names be (f_names f) e_names.

(** what is delivered: names as C strings, if TCP was among the protocols (of this or, as it happens, any
    earlier datagram); replies go to the sender if the address is 0 *)
Definition search_of (tcp : bool) (src : sockaddr) (version : Z) (f : fields) : search :=
  {| s_version := version; s_id := f_id f; s_mustreply := Z.testbit (f_flags f) 0;
     s_server := if is_any (f_addr f) then src else f_addr f; s_port := f_port f;
     s_other := filter (fun p => negb (str_eqb p t_tcp) && negb (is_nil p)) (f_protos f);
     s_names := if tcp || existsb (fun p => str_eqb p t_tcp) (f_protos f) then map (fun x => (c_str (fst x), snd x)) (f_names f) else [] |}.
(** a search marked unicast, sent to an IPv4 address other than the local multicast group, is forwarded
    to that group *)
Definition forwarded (f : fields) (dest : sockaddr) : bool := Z.testbit (f_flags f) 7 && is_in dest && negb (is_lo_mcast dest).

(** an origin tag: the original destination, before another message *)
Definition tagged (orig : sockaddr) (inner d : list Z) : Prop :=
  exists version be e_addr more, message_len version be cmd_origin_tag (16 + zlen more) (e_addr ++ more ++ inner) d /\ fmt_addr orig e_addr.

Definition beacon_body (be : bool) (guid : list Z) (a : sockaddr) (port : Z) (proto : str) (body : list Z) : Prop :=
  exists four e_addr e_port e_proto more,
    body = guid ++ four ++ e_addr ++ e_port ++ e_proto ++ more /\ length guid = 12%nat /\ length four = 4%nat /\
    fmt_addr a e_addr /\ represents be 2 port e_port /\ fmt_str be proto e_proto.
