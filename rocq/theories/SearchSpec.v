(** The messages of searching, independent of how they are written and read. *)
From Coq Require Import ZArith List Bool.
From Verif Require Import Base WireModel WireSpec UdpModel UdpSpec.
Import ListNotations.
Local Open Scope Z_scope.

(** the identifier of every search of this client: the bytes of "find" *)
Definition find_seq : Z := 0x66696e64.
Definition no_addr : sockaddr := SA_in6 (repeat 0 16).
(** "tcp" *)
Definition tcp : str := [116; 99; 112].
(** version 2, big endian, complete: replies are to be sent to the sender, at [port].  [entries]: identifier
    and name of each channel *)
Definition is_search (flags port : Z) (protos : list str) (entries : list (Z * str)) (d : list Z) : Prop :=
  exists body, message_len 2 true cmd_search (zlen body) body d /\
    search_body true {| f_id := find_seq; f_flags := flags; f_addr := no_addr; f_port := port; f_protos := protos;
                        f_names := map (fun x => (snd x, fst x)) entries |} body.

(** a reply: who, the identifier of the search, where to connect, found or not, the channels found *)
Inductive fmt_ids (be : bool) : list Z -> list Z -> Prop :=
| ids_nil : fmt_ids be [] []
| ids_cons : forall id l e e', represents be 4 id e -> fmt_ids be l e' -> fmt_ids be (id :: l) (e ++ e').
Definition response_body (be : bool) (guid : list Z) (id : Z) (a : sockaddr) (port : Z) (proto : str) (found : Z) (ids : list Z) (body : list Z) : Prop :=
  exists e_id e_addr e_port e_proto e_n e_ids more,
    body = guid ++ e_id ++ e_addr ++ e_port ++ e_proto ++ [found] ++ e_n ++ e_ids ++ more /\ length guid = 12%nat /\
    represents be 4 id e_id /\ fmt_addr a e_addr /\ represents be 2 port e_port /\ fmt_str be proto e_proto /\
    represents be 2 (zlen ids) e_n /\ fmt_ids be ids e_ids.

(** a source is asked about all the names at once, and answers for each *)
Definition answers (s : list str -> list bool) : Prop := forall names, length (s names) = length names.
(** the channel with identifier [id] is among those searched for, and some source claims it *)
Definition claimed (sources : list (list str -> list bool)) (names : list (str * Z)) (id : Z) : Prop :=
  exists j name s, nth_error names j = Some (name, id) /\ In s sources /\ nth_error (s (map fst names)) j = Some true.
