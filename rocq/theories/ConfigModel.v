(** Model of configuration handling, src/config.cpp, for client and server: reading definitions or
    environment variables, lists of addresses, removal of duplicates, timeouts.

    A floating point number is NaN, an infinity, or finite with its exact value: comparison, which is
    all enforceTimeout() does, is exact.  The results of multiplications are not rounded.
    An endpoint's text is read and printed by SockEndpoint and ostream, left abstract ([norm]).

    No proofs in this file. *)
From Coq Require Import ZArith QArith List Bool.
From Verif Require Import Base WireModel TextModel.
Import ListNotations.
Local Open Scope Z_scope.

(** ** Timeouts *)
Inductive dbl := NaN | Inf (neg : bool) | Fin (q : Q).
Definition q_lt (a b : Q) : bool := negb (Qle_bool b a).
(** double(numeric_limits<time_t>::max()), with 64-bit time_t *)
Definition time_max : Q := inject_Z (2 ^ 63).
(** enforceTimeout(), src/config.cpp:372-390 *)
Definition enforce_timeout (t : dbl) : dbl :=
  match t with
  | NaN | Inf _ => Fin 40
  | Fin q =>
    if Qle_bool q 0 || Qle_bool time_max q then Fin 40
    else if q_lt q 2 then Fin 2
    else Fin q
  end.
(** parse_timeout(), src/config.cpp:211-227; [v]: what parseTo<double>() gave, None: it threw.
    [old]: the value before *)
Definition parse_timeout (old : dbl) (v : option dbl) : dbl :=
  match v with
  | Some (Fin q) => if q_lt q 0 || q_lt time_max q then old else Fin (q * (4 # 3))%Q
  | _ => old
  end.
(** the period of the echo timer, src/clientconn.cpp:155 *)
Definition echo_period (tmo : Q) : Q :=
  let x := (tmo * 3 / 8)%Q in
  let m := if Qle_bool 15 x then 15%Q else x in if Qle_bool m 1 then 1%Q else m.

(** ** Endpoints *)
(** SockEndpoint, src/utilpvt.h; [address] stands for a SockAddr: family, address and port *)
Record endpoint := { e_addr : Z; e_ttl : Z; e_iface : str }.
(** the key of [seen] *)
Definition same_dest (a b : endpoint) : bool := (e_addr a =? e_addr b) && str_eqb (e_iface a) (e_iface b).
(** seen.find(key): the index of the first endpoint kept which has this destination *)
Fixpoint find_dest (x : endpoint) (seen : list (endpoint * nat)) : option nat :=
  match seen with
  | (y, i) :: seen' => if same_dest x y then Some i else find_dest x seen'
  | [] => None
  end.
Fixpoint set_ttl (i : nat) (t : Z) (l : list endpoint) : list endpoint :=
  match l, i with
  | e :: l', O => {| e_addr := e_addr e; e_ttl := t; e_iface := e_iface e |} :: l'
  | e :: l', S i' => e :: set_ttl i' t l'
  | [], _ => []
  end.
Definition get_ttl (i : nat) (l : list endpoint) : Z := match nth_error l i with Some e => e_ttl e | None => 0 end.
(** removeDups(std::vector<SockEndpoint>&), src/config.cpp:349-370: [kept] is addrs[0..i), [l] the rest *)
Fixpoint dedup (kept : list endpoint) (seen : list (endpoint * nat)) (l : list endpoint) : list endpoint :=
  match l with
  | [] => kept
  | ep :: l' =>
    match find_dest ep seen with
    | None => dedup (kept ++ [ep]) ((ep, length kept) :: seen) l'
    | Some i => dedup (if get_ttl i kept <? e_ttl ep then set_ttl i (e_ttl ep) kept else kept) seen l'
    end
  end.
Definition remove_dups (l : list endpoint) : list endpoint := dedup [] [] l.

(** ** Strings: std::sort() by operator<, unique(), erase(): src/config.cpp:338-344, 178-182 *)
Fixpoint str_leb (a b : str) : bool :=
  match a, b with
  | [], _ => true
  | _ :: _, [] => false
  | x :: a', y :: b' => if x <? y then true else if y <? x then false else str_leb a' b'
  end.
Fixpoint insert (x : str) (l : list str) : list str :=
  match l with
  | [] => [x]
  | y :: l' => if str_leb x y then x :: l else y :: insert x l'
  end.
Definition sort (l : list str) : list str := fold_right insert [] l.
Fixpoint unique (l : list str) : list str :=
  match l with
  | x :: ((y :: _) as l') => if str_eqb x y then unique l' else x :: unique l'
  | _ => l
  end.
Definition sort_unique (l : list str) : list str := unique (sort l).

(** ** Words of a list, src/config.cpp:155-164: find_first_not_of() and find_first_of() of " \t\r\n" *)
Definition blank (c : Z) : bool := (c =? 32) || (c =? 9) || (c =? 13) || (c =? 10).
Fixpoint skip_blank (s : str) : str := match s with c :: s' => if blank c then skip_blank s' else s | [] => [] end.
Fixpoint take_word (s : str) : str * str :=
  match s with
  | c :: s' => if blank c then ([], s) else let '(w, r) := take_word s' in (c :: w, r)
  | [] => ([], [])
  end.
Fixpoint words_loop (fuel : nat) (s : str) : list str :=
  match fuel with
  | O => []
  | S f =>
    match skip_blank s with
    | [] => []
    | s1 => let '(w, r) := take_word s1 in w :: words_loop f r
    end
  end.
Definition words (s : str) : list str := words_loop (S (length s)) s.

Section Norm.
(** [norm defport text]: SockEndpoint ep(text), the default port put in place of port 0, printed:
    src/config.cpp:166-169; None: an exception, from an invalid address *)
Variable norm : Z -> str -> option str.

(** split_addr_into(), src/config.cpp:151-183; None: an exception *)
Fixpoint norm_all (dp : Z) (required : bool) (l : list str) : option (list str) :=
  match l with
  | [] => Some []
  | w :: l' =>
    match norm dp w, norm_all dp required l' with
    | _, None => None
    | Some x, Some r => Some (x :: r)
    | None, Some r => if required then None else Some r
    end
  end.
Definition split_addr_into (out : list str) (inp : str) (dp : Z) (required : bool) : option (list str) :=
  match norm_all dp required (words inp) with
  | Some l => Some (sort_unique (out ++ l))
  | None => None
  end.

(** ** Definitions *)
(** the names of definitions or environment variables *)
Inductive dname :=
| S_port | P_port | S_bport | P_bport | S_intf | P_intf | S_ignore | S_beacon | P_addr
| S_auto | P_auto | P_tmo | P_names.
(** std::map, or getenv() *)
Definition defs := dname -> option str.
(** PickOne, src/config.cpp:229-255 *)
Fixpoint pick (d : defs) (l : list dname) : option str :=
  match l with
  | n :: l' => match d n with Some v => Some v | None => pick d l' end
  | [] => None
  end.
(** parse_bool(), src/config.cpp:199-209; epicsStrCaseCmp() *)
Definition upper (c : Z) : Z := if (97 <=? c) && (c <=? 122) then c - 32 else c.
Definition t_yes : str := [89; 69; 83].
Definition t_no : str := [78; 79].
Definition parse_yesno (old : bool) (v : str) : bool :=
  if str_eqb (map upper v) t_yes || str_eqb v [49] then true
  else if str_eqb (map upper v) t_no || str_eqb v [48] then false
  else old.
(** self.tcp_port = parseTo<uint64_t>(val), src/config.cpp:402, 410, 555, 567: an unsigned short *)
Definition parse_port (old : Z) (v : str) : Z :=
  match parse_u64 v with Some n => n mod 65536 | None => old end.
Definition with_ {A} (o : option str) (f : str -> A -> A) (x : A) : A := match o with Some v => f v x | None => x end.
Definition with_list (o : option str) (l : list str) (dp : Z) (required : bool) : option (list str) :=
  match o with Some v => split_addr_into l v dp required | None => Some l end.

(** server::Config, src/pvxs/server.h, without the timeout *)
Record server_config := {
  s_tcp : Z; s_udp : Z; s_intf : list str; s_ign : list str; s_dest : list str; s_auto : bool }.
(** default values: src/pvxs/server.h (Config) *)
Definition new_server_config : server_config :=
  {| s_tcp := 5075; s_udp := 5076; s_intf := []; s_ign := []; s_dest := []; s_auto := true |}.
(** server _fromDefs(), src/config.cpp:396-436 *)
Definition server_from_defs (d : defs) (c : server_config) : option server_config :=
  let tcp := with_ (pick d [S_port; P_port]) (fun v old => parse_port old v) (s_tcp c) in
  let udp := with_ (pick d [S_bport; P_bport]) (fun v old => parse_port old v) (s_udp c) in
  match with_list (pick d [S_intf]) (s_intf c) tcp true with
  | None => None
  | Some intf =>
    match with_list (pick d [S_ignore]) (s_ign c) 0 true with
    | None => None
    | Some ign =>
      match with_list (pick d [S_beacon; P_addr]) (s_dest c) udp false with
      | None => None
      | Some dest =>
        Some {| s_tcp := tcp; s_udp := udp; s_intf := intf; s_ign := ign; s_dest := dest;
                s_auto := with_ (pick d [S_auto; P_auto]) (fun v old => parse_yesno old v) (s_auto c) |}
      end
    end
  end.
(** client::Config, src/pvxs/client.h, without the timeout *)
Record client_config := {
  c_tcp : Z; c_udp : Z; c_addr : list str; c_intf : list str; c_names : list str; c_auto : bool }.
Definition new_client_config : client_config :=
  {| c_tcp := 5075; c_udp := 5076; c_addr := []; c_intf := []; c_names := []; c_auto := true |}.
(** client _fromDefs(), src/config.cpp:550-598 *)
Definition client_from_defs (d : defs) (c : client_config) : option client_config :=
  let udp0 := with_ (pick d [P_bport]) (fun v old => parse_port old v) (c_udp c) in
  let udp := if udp0 =? 0 then 5076 else udp0 in
  let tcp0 := with_ (pick d [P_port; S_port]) (fun v old => parse_port old v) (c_tcp c) in
  let tcp := if (tcp0 =? 0) && negb (is_nil (c_names c)) then 5075 else tcp0 in
  match with_list (pick d [P_addr]) (c_addr c) udp false with
  | None => None
  | Some addr =>
    match with_list (pick d [P_names]) (c_names c) tcp false with
    | None => None
    | Some names =>
      let auto := with_ (pick d [P_auto]) (fun v old => parse_yesno old v) (c_auto c) in
      match with_list (pick d [P_intf]) (c_intf c) 0 false with
      | None => None
      | Some intf => Some {| c_tcp := tcp; c_udp := udp; c_addr := addr; c_intf := intf; c_names := names; c_auto := auto |}
      end
    end
  end.
End Norm.

(** join_addr(), src/config.cpp:185-197 *)
Fixpoint join_addr (l : list str) : str :=
  match l with
  | [] => []
  | [x] => x
  | x :: l' => x ++ 32 :: join_addr l'
  end.
(** Config::updateDefs(), src/config.cpp:473-482, 612-621, without the timeout *)
Definition server_update_defs (c : server_config) (d : defs) : defs := fun n =>
  match n with
  | P_bport | S_bport => Some (print_int (s_udp c))
  | P_port | S_port => Some (print_int (s_tcp c))
  | P_auto | S_auto => Some (if s_auto c then t_yes else t_no)
  | P_addr | S_beacon => Some (join_addr (s_dest c))
  | P_intf | S_intf => Some (join_addr (s_intf c))
  | S_ignore => Some (join_addr (s_ign c))
  | _ => d n
  end.
Definition client_update_defs (c : client_config) (d : defs) : defs := fun n =>
  match n with
  | P_bport => Some (print_int (c_udp c))
  | P_port => Some (print_int (c_tcp c))
  | P_auto => Some (if c_auto c then t_yes else t_no)
  | P_addr => Some (join_addr (c_addr c))
  | P_intf => Some (join_addr (c_intf c))
  | P_names => Some (join_addr (c_names c))
  | _ => d n
  end.
