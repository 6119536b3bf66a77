(** Channels and connections of a client context: src/client.cpp, src/clientconn.cpp.

    All of this runs on one worker of the context.  Channels, connections, operations and
    Connect handles have numbers, given in turn; the 32 bits of cid are taken as enough
    (src/client.cpp:369-370 skips those in use).  Not here: which search bucket a channel is
    in (SearchModel), the messages as bytes (MsgModel), what operations do with replies
    (ClientOpModel, ClientMonModel), and callbacks which cancel others. *)
From Coq Require Import ZArith List Bool Arith.
From Verif Require Import Base.
Import ListNotations.

(** Channel::state, src/clientimpl.h:184-189 *)
Inductive cstate := Searching | Connecting | Creating | Active.
(** ConnBase::state, src/conn.h *)
Inductive nstate := Holdoff | Opening | Connected | Disconnected.
(** Channel, src/clientimpl.h:176-232.  [c_server] is forcedServer, with the port; [c_watch]
    is connectors with the flag _connected of each, and [c_refs] the operations which hold a
    reference to the channel.  [c_pending] holds weak references: those not in
    [c_refs] are dead. *)
Record channel := {
  c_name : str; c_server : option Z; c_state : cstate; c_conn : option nat; c_sid : Z;
  c_pending : list nat; c_ops : list nat; c_watch : list (nat * bool); c_refs : list nat
}.
(** Connection and ConnBase, src/clientimpl.h:80-150: [n_bev] is whether there is a
    bufferevent, [n_timer] whether echoTimer runs, [n_ops] is opByIOID. *)
Record conn := {
  n_addr : Z; n_state : nstate; n_bev : bool; n_timer : bool; n_ready : bool; n_ns : bool;
  n_pending : list nat; n_creating : list nat; n_bysid : list (Z * nat); n_ops : list nat
}.
(** What can be seen from outside: messages to servers, attempts to connect, callbacks of
    Connect handles, and what is told to operations: createOp(), disconnected(). *)
Inductive out :=
| OOpen (n : nat) (addr : Z)
| OEcho (n : nat)
| OCreate (n : nat) (cid : nat) (name : str)
| ODestroy (n : nat) (sid : Z) (cid : nat)
| OUp (w : nat)
| ODown (w : nat)
| OStart (op : nat) (n : nat)
| OLost (op : nat)
| OFail (op : nat)
| OEnd (op : nat).
(** ContextImpl, src/clientimpl.h:250-385.  [x_search] are the channels in searchBuckets and
    initialSearchBucket. *)
Record ctx := {
  x_run : bool; x_chans : nat -> option channel; x_conns : nat -> option conn;
  x_names : list ((str * option Z) * nat); x_addr : Z -> option nat; x_search : list nat;
  x_ns : list (Z * option nat); x_nc : nat; x_nn : nat; x_no : nat; x_nw : nat; x_out : list out
}.

(** ** Setting fields *)
Definition c_with_state (s : cstate) (c : channel) := {| c_name := c_name c; c_server := c_server c; c_state := s; c_conn := c_conn c; c_sid := c_sid c; c_pending := c_pending c; c_ops := c_ops c; c_watch := c_watch c; c_refs := c_refs c |}.
Definition c_with_conn (n : option nat) (c : channel) := {| c_name := c_name c; c_server := c_server c; c_state := c_state c; c_conn := n; c_sid := c_sid c; c_pending := c_pending c; c_ops := c_ops c; c_watch := c_watch c; c_refs := c_refs c |}.
Definition c_with_sid (s : Z) (c : channel) := {| c_name := c_name c; c_server := c_server c; c_state := c_state c; c_conn := c_conn c; c_sid := s; c_pending := c_pending c; c_ops := c_ops c; c_watch := c_watch c; c_refs := c_refs c |}.
Definition c_with_ops (p o : list nat) (c : channel) := {| c_name := c_name c; c_server := c_server c; c_state := c_state c; c_conn := c_conn c; c_sid := c_sid c; c_pending := p; c_ops := o; c_watch := c_watch c; c_refs := c_refs c |}.
Definition c_with_watch (w : list (nat * bool)) (c : channel) := {| c_name := c_name c; c_server := c_server c; c_state := c_state c; c_conn := c_conn c; c_sid := c_sid c; c_pending := c_pending c; c_ops := c_ops c; c_watch := w; c_refs := c_refs c |}.
Definition c_with_refs (r : list nat) (c : channel) := {| c_name := c_name c; c_server := c_server c; c_state := c_state c; c_conn := c_conn c; c_sid := c_sid c; c_pending := c_pending c; c_ops := c_ops c; c_watch := c_watch c; c_refs := r |}.
Definition n_with_tcp (s : nstate) (bev timer ready : bool) (n : conn) := {| n_addr := n_addr n; n_state := s; n_bev := bev; n_timer := timer; n_ready := ready; n_ns := n_ns n; n_pending := n_pending n; n_creating := n_creating n; n_bysid := n_bysid n; n_ops := n_ops n |}.
Definition n_with_ns (n : conn) := {| n_addr := n_addr n; n_state := n_state n; n_bev := n_bev n; n_timer := n_timer n; n_ready := n_ready n; n_ns := true; n_pending := n_pending n; n_creating := n_creating n; n_bysid := n_bysid n; n_ops := n_ops n |}.
Definition n_with_lists (p c : list nat) (s : list (Z * nat)) (n : conn) := {| n_addr := n_addr n; n_state := n_state n; n_bev := n_bev n; n_timer := n_timer n; n_ready := n_ready n; n_ns := n_ns n; n_pending := p; n_creating := c; n_bysid := s; n_ops := n_ops n |}.
Definition n_with_ops (o : list nat) (n : conn) := {| n_addr := n_addr n; n_state := n_state n; n_bev := n_bev n; n_timer := n_timer n; n_ready := n_ready n; n_ns := n_ns n; n_pending := n_pending n; n_creating := n_creating n; n_bysid := n_bysid n; n_ops := o |}.
Definition upd {A} (f : nat -> option A) (k : nat) (v : option A) : nat -> option A := fun k' => if Nat.eqb k' k then v else f k'.
Definition set_chan (i : nat) (c : option channel) (x : ctx) := {| x_run := x_run x; x_chans := upd (x_chans x) i c; x_conns := x_conns x; x_names := x_names x; x_addr := x_addr x; x_search := x_search x; x_ns := x_ns x; x_nc := x_nc x; x_nn := x_nn x; x_no := x_no x; x_nw := x_nw x; x_out := x_out x |}.
Definition set_conn (i : nat) (c : option conn) (x : ctx) := {| x_run := x_run x; x_chans := x_chans x; x_conns := upd (x_conns x) i c; x_names := x_names x; x_addr := x_addr x; x_search := x_search x; x_ns := x_ns x; x_nc := x_nc x; x_nn := x_nn x; x_no := x_no x; x_nw := x_nw x; x_out := x_out x |}.
Definition set_names (l : list ((str * option Z) * nat)) (x : ctx) := {| x_run := x_run x; x_chans := x_chans x; x_conns := x_conns x; x_names := l; x_addr := x_addr x; x_search := x_search x; x_ns := x_ns x; x_nc := x_nc x; x_nn := x_nn x; x_no := x_no x; x_nw := x_nw x; x_out := x_out x |}.
Definition set_addr (a : Z) (n : option nat) (x : ctx) := {| x_run := x_run x; x_chans := x_chans x; x_conns := x_conns x; x_names := x_names x; x_addr := fun a' => if Z.eqb a' a then n else x_addr x a'; x_search := x_search x; x_ns := x_ns x; x_nc := x_nc x; x_nn := x_nn x; x_no := x_no x; x_nw := x_nw x; x_out := x_out x |}.
Definition set_search (l : list nat) (x : ctx) := {| x_run := x_run x; x_chans := x_chans x; x_conns := x_conns x; x_names := x_names x; x_addr := x_addr x; x_search := l; x_ns := x_ns x; x_nc := x_nc x; x_nn := x_nn x; x_no := x_no x; x_nw := x_nw x; x_out := x_out x |}.
Definition set_ns (l : list (Z * option nat)) (x : ctx) := {| x_run := x_run x; x_chans := x_chans x; x_conns := x_conns x; x_names := x_names x; x_addr := x_addr x; x_search := x_search x; x_ns := l; x_nc := x_nc x; x_nn := x_nn x; x_no := x_no x; x_nw := x_nw x; x_out := x_out x |}.
Definition stop (x : ctx) := {| x_run := false; x_chans := x_chans x; x_conns := x_conns x; x_names := x_names x; x_addr := fun _ => None; x_search := x_search x; x_ns := x_ns x; x_nc := x_nc x; x_nn := x_nn x; x_no := x_no x; x_nw := x_nw x; x_out := x_out x |}.
Definition set_next (c n o w : nat) (x : ctx) := {| x_run := x_run x; x_chans := x_chans x; x_conns := x_conns x; x_names := x_names x; x_addr := x_addr x; x_search := x_search x; x_ns := x_ns x; x_nc := c; x_nn := n; x_no := o; x_nw := w; x_out := x_out x |}.
Definition emit (l : list out) (x : ctx) := {| x_run := x_run x; x_chans := x_chans x; x_conns := x_conns x; x_names := x_names x; x_addr := x_addr x; x_search := x_search x; x_ns := x_ns x; x_nc := x_nc x; x_nn := x_nn x; x_no := x_no x; x_nw := x_nw x; x_out := x_out x ++ l |}.

Definition is_in (i : nat) (l : list nat) : bool := existsb (Nat.eqb i) l.
Definition without (i : nat) (l : list nat) : list nat := filter (fun j => negb (Nat.eqb i j)) l.
(** std::map<uint32_t,...>[cid] = chan, with cid as key *)
Definition with_ (i : nat) (l : list nat) : list nat := if is_in i l then l else l ++ [i].
Definition without_sid (s : Z) (l : list (Z * nat)) : list (Z * nat) := filter (fun p => negb (Z.eqb s (fst p))) l.
Definition find_sid (s : Z) (l : list (Z * nat)) : option nat := option_map snd (find (fun p => Z.eqb s (fst p)) l).
Definition key_eqb (a b : str * option Z) : bool :=
  str_eqb (fst a) (fst b) && match snd a, snd b with Some p, Some q => Z.eqb p q | None, None => true | _, _ => false end.
Definition find_name (k : str * option Z) (l : list ((str * option Z) * nat)) : option nat :=
  option_map snd (find (fun p => key_eqb k (fst p)) l).

(** None: a failed assert() or the use of a null pointer. *)
Definition bind {A B} (r : option A) (f : A -> option B) : option B := match r with Some a => f a | None => None end.
Fixpoint each {A} (f : A -> ctx -> option ctx) (l : list A) (x : ctx) : option ctx :=
  match l with [] => Some x | a :: l' => bind (f a x) (each f l') end.

(** ** Connections *)

(** Connection::Connection() and build(), src/clientconn.cpp:19-39, :47-59; startConnecting(),
    :61-80, fails at once if not [ok].  The second part of the result is empty for an
    exception. *)
Definition new_conn (addr : Z) (reconn : bool) : conn :=
  {| n_addr := addr; n_state := if reconn then Holdoff else Opening; n_bev := negb reconn; n_timer := reconn; n_ready := false; n_ns := false;
     n_pending := []; n_creating := []; n_bysid := []; n_ops := [] |}.
Definition build_conn (addr : Z) (reconn ok : bool) (x : ctx) : ctx * option nat :=
  if negb (x_run x) then (x, None)
  else match x_addr x addr with
       | Some n => (x, Some n)
       | None =>
           if reconn || ok then
             let n := x_nn x in
             (set_addr addr (Some n) (set_conn n (Some (new_conn addr reconn))
                (set_next (x_nc x) (S n) (x_no x) (x_nw x) (emit (if reconn then [] else [OOpen n addr]) x))), Some n)
           else (x, None)
       end.
(** createChannels(), :82-111.  In the code all are taken from the list at first. *)
Definition create_one (n : nat) (i : nat) (x : ctx) : option ctx :=
  match x_conns x n with
  | Some k =>
      match x_chans x i with
      | Some c =>
          match c_state c with
          | Connecting =>
              if n_bev k
              then Some (emit [OCreate n i (c_name c)] (set_chan i (Some (c_with_state Creating c))
                           (set_conn n (Some (n_with_lists (without i (n_pending k)) (with_ i (n_creating k)) (n_bysid k) k)) x)))
              else None
          | _ => Some (set_conn n (Some (n_with_lists (without i (n_pending k)) (n_creating k) (n_bysid k) k)) x)
          end
      | None => Some (set_conn n (Some (n_with_lists (without i (n_pending k)) (n_creating k) (n_bysid k) k)) x)
      end
  | None => None
  end.
Definition create_channels (n : nat) (x : ctx) : option ctx :=
  match x_conns x n with
  | Some k => if n_ready k then each (create_one n) (n_pending k) x else Some x
  | None => None
  end.
(** A channel is given to a connection: src/client.cpp:377-384, :238-243 and procSearchReply(),
    :893-898 *)
Definition attach (i n : nat) (x : ctx) : option ctx :=
  match x_chans x i, x_conns x n with
  | Some c, Some k =>
      create_channels n (set_chan i (Some (c_with_state Connecting (c_with_conn (Some n) c)))
         (set_conn n (Some (n_with_lists (with_ i (n_pending k)) (n_creating k) (n_bysid k) k)) x))
  | _, _ => None
  end.

(** ** Channels *)

(** Channel::createOperations(), src/client.cpp:117-145 *)
Definition create_operations (i : nat) (x : ctx) : option ctx :=
  match x_chans x i with
  | None => None
  | Some c =>
      match c_state c with
      | Active =>
          let todo := filter (fun o => is_in o (c_refs c)) (c_pending c) in
          match todo with
          | [] => Some (set_chan i (Some (c_with_ops [] (c_ops c) c)) x)
          | _ =>
              match c_conn c with
              | None => None
              | Some n =>
                  match x_conns x n with
                  | None => None
                  | Some k =>
                      if n_bev k
                      then Some (emit (map (fun o => OStart o n) todo)
                                  (set_chan i (Some (c_with_ops [] (c_ops c ++ todo) c)) (set_conn n (Some (n_with_ops (n_ops k ++ todo) k)) x)))
                      else None
                  end
              end
          end
      | _ => Some x
      end
  end.
(** Channel::disconnect(), src/client.cpp:149-246.  [self] is whether it is not called from
    ~Channel().  [again] tells which operations go back to be tried again; the others
    end with an error: disconnected(), src/clientget.cpp:362-386. *)
Definition leave (i : nat) (c : channel) (k : conn) : conn :=
  match c_state c with
  | Connecting => n_with_lists (without i (n_pending k)) (n_creating k) (n_bysid k) k
  | Creating => n_with_lists (n_pending k) (without i (n_creating k)) (n_bysid k) k
  | Active => n_with_lists (n_pending k) (n_creating k) (without_sid (c_sid c) (n_bysid k)) k
  | Searching => k
  end.
Definition spoilt : Z := 0xdeadbeef.
Definition disconnect (self : bool) (again : nat -> bool) (i : nat) (x : ctx) : option ctx :=
  match x_chans x i with
  | None => None
  | Some c =>
      let k := match c_conn c with Some n => option_map (pair n) (x_conns x n) | None => None end in
      match k, c_state c with
      | None, Connecting | None, Creating | None, Active => None
      | _, _ =>
          let sends := match k, c_state c with
                       | Some (n, k), Creating | Some (n, k), Active => if n_bev k then [ODestroy n (c_sid c) i] else []
                       | _, _ => []
                       end in
          let downs := flat_map (fun w => if snd w : bool then [ODown (fst w)] else []) (c_watch c) in
          let alive := filter (fun o => is_in o (c_refs c)) (c_ops c) in
          let lost := map (fun o => if again o then OLost o else OFail o) alive in
          let c' := {| c_name := c_name c; c_server := c_server c; c_state := Searching; c_conn := None; c_sid := spoilt;
                       c_pending := c_pending c ++ filter again alive; c_ops := [];
                       c_watch := map (fun w => (fst w, false)) (c_watch c); c_refs := c_refs c |} in
          let x1 := match k with
                    | Some (n, k) => set_conn n (Some (n_with_ops (filter (fun o => negb (is_in o (c_ops c))) (n_ops k)) (leave i c k))) x
                    | None => x
                    end in
          let x2 := emit (sends ++ downs ++ lost) (set_chan i (Some c') x1) in
          if negb self then Some x2
          else match c_server c with
               | None => Some (set_search (x_search x2 ++ [i]) x2)
               | Some a =>
                   match build_conn a true true x2 with
                   | (x3, Some n) => attach i n x3
                   | (x3, None) => Some x3
                   end
               end
      end
  end.
(** Channel::build(), src/client.cpp:347-389.  The last part is empty for an exception. *)
Definition new_channel (name : str) (server : option Z) : channel :=
  {| c_name := name; c_server := server; c_state := Searching; c_conn := None; c_sid := 0; c_pending := []; c_ops := []; c_watch := []; c_refs := [] |}.
Definition build_chan (name : str) (server : option Z) (ok : bool) (x : ctx) : option (ctx * option nat) :=
  if negb (x_run x) then Some (x, None)
  else match find_name (name, server) (x_names x) with
       | Some i => Some (x, Some i)
       | None =>
           let i := x_nc x in
           let x1 := set_names (x_names x ++ [((name, server), i)]) (set_chan i (Some (new_channel name server))
                       (set_next (S i) (x_nn x) (x_no x) (x_nw x) x)) in
           match server with
           | None => Some (set_search (x_search x1 ++ [i]) x1, Some i)
           | Some a =>
               match build_conn a false ok x1 with
               | (x2, None) => Some (x2, None)
               | (x2, Some n) => bind (attach i n x2) (fun x3 => Some (x3, Some i))
               end
           end
       end.
(** Connection::cleanup(), src/clientconn.cpp:166-207.  The order of a set of pointers is
    taken as that of the lists. *)
Definition listed (k : conn) : list nat := nodup Nat.eq_dec (n_pending k ++ map snd (n_bysid k) ++ n_creating k).
Definition cleanup (again : nat -> bool) (n : nat) (x : ctx) : option ctx :=
  match x_conns x n with
  | None => None
  | Some k =>
      let x1 := set_conn n (Some (n_with_tcp (n_state k) false false false k)) (set_addr (n_addr k) None x) in
      let todo := filter (fun i => match x_chans x i with Some _ => true | None => false end) (listed k) in
      bind (each (fun i x => disconnect true again i x) todo x1) (fun x2 =>
        match x_conns x2 n with
        | None => None
        | Some k2 => match n_ops k2 with
                     | [] => Some (set_conn n (Some (n_with_lists [] (n_creating k2) [] k2)) x2)
                     | _ => None
                     end
        end)
  end.

(** ** Destructors *)

(** A channel is kept by the cache, by operations and by Connect handles *)
Definition held (x : ctx) (i : nat) (c : channel) : bool :=
  existsb (fun p => Nat.eqb i (snd p)) (x_names x) || negb (match c_refs c with [] => true | _ => false end) || negb (match c_watch c with [] => true | _ => false end).
Definition free_chan (i : nat) (x : ctx) : option ctx :=
  match x_chans x i with
  | Some c => if held x i c then Some x else option_map (set_chan i None) (disconnect false (fun _ => false) i x)
  | None => Some x
  end.
(** A connection is kept by channels and by the list of name servers.  ~Connection(),
    src/clientconn.cpp:41-45: cleanup(), where no channel is left which could be told *)
Definition used (x : ctx) (n : nat) : bool :=
  existsb (fun i => match x_chans x i with Some c => match c_conn c with Some m => Nat.eqb n m | None => false end | None => false end) (seq 0 (x_nc x))
  || existsb (fun p => match snd p with Some m => Nat.eqb n m | None => false end) (x_ns x).
Definition free_conn (n : nat) (x : ctx) : option ctx :=
  match x_conns x n with
  | Some k => if used x n then Some x else option_map (set_conn n None) (cleanup (fun _ => false) n x)
  | None => Some x
  end.
(** at the end of each event; in the code at once *)
Definition collect (x : ctx) : option ctx :=
  bind (each free_chan (seq 0 (x_nc x)) x) (fun y => each free_conn (seq 0 (x_nn y)) y).

(** ** Events *)

Inductive caction := Clean | Drop | Disconnect.
Inductive event :=
| EExec (name : str) (server : option Z) (ok : bool)       (* exec() of an operation *)
| EDrop (i op : nat)                                       (* cancel() and release of operation op of channel i *)
| EEnd (i op : nat)                                        (* an operation ends by a reply of the server *)
| EWatch (name : str) (server : option Z) (ok : bool)      (* ConnectBuilder::exec() *)
| EUnwatch (i w : nat)                                     (* release of a Connect handle *)
| EFound (i : nat) (addr : Z) (ok : bool)                  (* one name of a search reply *)
| EPrune (i : nat)                                         (* tickSearch() drops a channel which is no longer searched for *)
| EUp (n : nat)                                            (* TCP connection made *)
| EValidated (n : nat)
| ELost (n : nat) (violation : bool) (again : nat -> bool) (* end of connection: by TCP, or ended by the client for a violation *)
| ECreated (n i : nat) (sid : Z) (ok : bool)               (* reply to CREATE_CHANNEL *)
| EDestroyed (n : nat) (sid : Z) (again : nat -> bool)     (* DESTROY_CHANNEL *)
| ETick (n : nat) (ok : bool)                              (* echoTimer *)
| EClean (name : str) (a : caction) (again : nat -> bool)  (* cacheClean() *)
| ENsCheck (ok : Z -> bool)                                (* startNS(), onNSCheck() *)
| EClose (again : nat -> bool).

(** exec() of GET and others, src/clientget.cpp:596-603 *)
Definition exec (name : str) (server : option Z) (ok : bool) (x : ctx) : option ctx :=
  bind (build_chan name server ok x) (fun r =>
    match r with
    | (x1, None) => Some x1
    | (x1, Some i) =>
        match x_chans x1 i with
        | None => None
        | Some c => create_operations i (set_chan i (Some (c_with_refs (c_refs c ++ [x_no x1]) (c_with_ops (c_pending c ++ [x_no x1]) (c_ops c) c)))
                      (set_next (x_nc x1) (x_nn x1) (S (x_no x1)) (x_nw x1) x1))
        end
    end).
(** An operation leaves: _cancel(), src/clientget.cpp:188-204; or ended, :325-330. *)
Definition leave_op (i op : nat) (x : ctx) : option ctx :=
  match x_chans x i with
  | None => Some x
  | Some c =>
      if is_in op (c_ops c)
      then match c_conn c with
           | None => None
           | Some n =>
               match x_conns x n with
               | None => None
               | Some k => Some (set_chan i (Some (c_with_ops (c_pending c) (without op (c_ops c)) c))
                                   (set_conn n (Some (n_with_ops (without op (n_ops k)) k)) x))
               end
           end
      else Some x
  end.
Definition drop_op (i op : nat) (x : ctx) : option ctx :=
  bind (leave_op i op x) (fun x1 =>
    match x_chans x1 i with
    | Some c => Some (set_chan i (Some (c_with_refs (without op (c_refs c)) c)) x1)
    | None => Some x1
    end).
Definition end_op (i op : nat) (x : ctx) : option ctx :=
  match x_chans x i with
  | Some c => if is_in op (c_ops c) then bind (leave_op i op x) (fun x1 => Some (emit [OEnd op] x1)) else Some x
  | None => Some x
  end.
(** ConnectBuilder::exec(), src/client.cpp:261-307 *)
Definition watch (name : str) (server : option Z) (ok : bool) (x : ctx) : option ctx :=
  bind (build_chan name server ok x) (fun r =>
    match r with
    | (x1, None) => Some x1
    | (x1, Some i) =>
        match x_chans x1 i with
        | None => None
        | Some c =>
            let cur := match c_state c with Active => true | _ => false end in
            Some (emit [if cur then OUp (x_nw x1) else ODown (x_nw x1)]
                   (set_chan i (Some (c_with_watch (c_watch c ++ [(x_nw x1, cur)]) c)) (set_next (x_nc x1) (x_nn x1) (x_no x1) (S (x_nw x1)) x1)))
        end
    end).
(** procSearchReply(), src/client.cpp:872-907 *)
Definition found (i : nat) (addr : Z) (ok : bool) (x : ctx) : option ctx :=
  match x_chans x i with
  | Some c =>
      match c_state c with
      | Searching => match build_conn addr false ok x with
                     | (x1, Some n) => attach i n x1
                     | (x1, None) => Some x1
                     end
      | _ => Some x
      end
  | None => Some x
  end.
(** bevEvent(), src/clientconn.cpp:128-159 and src/conn.cpp:121-143 *)
Definition tcp_up (n : nat) (x : ctx) : option ctx :=
  match x_conns x n with
  | Some k => match n_state k with
              | Opening => if n_bev k then Some (set_conn n (Some (n_with_tcp Connected true true (n_ready k) k)) x) else Some x
              | _ => Some x
              end
  | None => Some x
  end.
Definition lost (again : nat -> bool) (violation : bool) (n : nat) (x : ctx) : option ctx :=
  match x_conns x n with
  | Some k => if n_bev k
              then cleanup again n (set_conn n (Some (n_with_tcp (if violation then n_state k else Disconnected) false (n_timer k) (n_ready k) k)) x)
              else Some x
  | None => Some x
  end.
(** Messages arrive while there is a TCP connection. *)
Definition open (k : conn) : bool := n_bev k && match n_state k with Connected => true | _ => false end.
(** handle_CONNECTION_VALIDATED(), :298-328 *)
Definition validated (n : nat) (x : ctx) : option ctx :=
  match x_conns x n with
  | Some k => if open k then create_channels n (set_conn n (Some (n_with_tcp (n_state k) (n_bev k) (n_timer k) true k)) x) else Some x
  | None => Some x
  end.
(** handle_CREATE_CHANNEL(), :330-405 *)
Definition created (n i : nat) (sid : Z) (ok : bool) (x : ctx) : option ctx :=
  match x_conns x n with
  | Some k =>
      if open k then
        match is_in i (n_creating k), x_chans x i with
        | true, Some c =>
            let x1 := set_conn n (Some (n_with_lists (n_pending k) (without i (n_creating k)) (n_bysid k) k)) x in
            if negb ok
            then Some (set_search (x_search x1 ++ [i]) (set_chan i (Some (c_with_state Searching c)) x1))
            else
              let x2 := set_chan i (Some (c_with_state Active (c_with_sid sid c)))
                          (set_conn n (Some (n_with_lists (n_pending k) (without i (n_creating k)) (without_sid sid (n_bysid k) ++ [(sid, i)]) k)) x) in
              bind (create_operations i x2) (fun x3 =>
                match x_chans x3 i with
                | None => None
                | Some c3 =>
                    Some (emit (flat_map (fun w => if snd w : bool then [] else [OUp (fst w)]) (c_watch c3))
                           (set_chan i (Some (c_with_watch (map (fun w => (fst w, true)) (c_watch c3)) c3)) x3))
                end)
        | b, _ =>
            let x1 := if b : bool then set_conn n (Some (n_with_lists (n_pending k) (without i (n_creating k)) (n_bysid k) k)) x else x in
            Some (emit (if ok then [ODestroy n sid i] else []) x1)
        end
      else Some x
  | None => Some x
  end.
(** handle_DESTROY_CHANNEL(), :407-441; chanBySID.erase(sid), :434, is done again by
    disconnect() *)
Definition destroyed (again : nat -> bool) (n : nat) (sid : Z) (x : ctx) : option ctx :=
  match x_conns x n with
  | Some k =>
      if open k then
        match find_sid sid (n_bysid k) with
        | Some i => match x_chans x i with
                    | Some _ => disconnect true again i x
                    | None => Some x
                    end
        | None => Some x
        end
      else Some x
  | None => Some x
  end.
(** tickEcho(), :474-500.  startConnecting() fails at once if not [ok]. *)
Definition tick (n : nat) (ok : bool) (x : ctx) : option ctx :=
  match x_conns x n with
  | Some k =>
      if n_timer k then
        match n_state k with
        | Holdoff => if ok
                     then Some (emit [OOpen n (n_addr k)] (set_conn n (Some (n_with_tcp Opening true false (n_ready k) k)) x))
                     else Some (set_conn n (Some (n_with_tcp Holdoff false false (n_ready k) k)) x)
        | _ => Some (emit (if n_bev k then [OEcho n] else []) x)
        end
      else Some x
  | None => Some x
  end.
(** cacheClean(), src/client.cpp:1303-1337; an empty name is all of them *)
Definition clean_one (name : str) (a : caction) (again : nat -> bool) (e : (str * option Z) * nat) (x : ctx) : option ctx :=
  let '(key, i) := e in
  if negb (match name with [] => true | _ => str_eqb (fst key) name end) then Some x
  else match x_chans x i with
       | None => None
       | Some c =>
           match a with
           | Clean => match c_refs c, c_watch c with
                      | [], [] => Some (set_names (filter (fun p => negb (key_eqb key (fst p))) (x_names x)) x)
                      | _, _ => Some x
                      end
           | Drop => Some (set_names (filter (fun p => negb (key_eqb key (fst p))) (x_names x)) x)
           | Disconnect => disconnect true again i (set_names (filter (fun p => negb (key_eqb key (fst p))) (x_names x)) x)
           end
       end.
Definition clean (name : str) (a : caction) (again : nat -> bool) (x : ctx) : option ctx :=
  each (fun e x => bind (clean_one name a again e x) collect) (x_names x) x.
(** onNSCheck(), :1281-1291.  An exception ends it. *)
Fixpoint ns_check (ok : Z -> bool) (before after : list (Z * option nat)) (x : ctx) : option ctx :=
  match after with
  | [] => Some x
  | (a, o) :: l =>
      let live := match o with
                  | Some n => match x_conns x n with
                              | Some k => match n_state k with Disconnected => false | _ => true end
                              | None => false
                              end
                  | None => false
                  end in
      if live then ns_check ok (before ++ [(a, o)]) l x
      else match build_conn a false (ok a) x with
           | (x1, None) => Some x1
           | (x1, Some n) =>
               match x_conns x1 n with
               | None => None
               | Some k =>
                   bind (collect (set_ns (before ++ (a, Some n) :: l) (set_conn n (Some (n_with_ns k)) x1)))
                        (ns_check ok (before ++ [(a, Some n)]) l)
               end
           end
  end.
(** close(), :662-704 *)
Definition close (again : nat -> bool) (x : ctx) : option ctx :=
  if negb (x_run x) then Some x
  else
    let conns := filter (fun n => match x_conns x n with Some k => match x_addr x (n_addr k) with Some m => Nat.eqb n m | None => false end | None => false end) (seq 0 (x_nn x)) in
    bind (each (cleanup again) conns (stop x)) (fun x2 => Some (set_ns [] (set_names [] x2))).

Definition handle (e : event) (x : ctx) : option ctx :=
  match e with
  | EExec name server ok => exec name server ok x
  | EDrop i op => drop_op i op x
  | EEnd i op => end_op i op x
  | EWatch name server ok => watch name server ok x
  | EUnwatch i w => match x_chans x i with
                    | Some c => Some (set_chan i (Some (c_with_watch (filter (fun p => negb (Nat.eqb w (fst p))) (c_watch c)) c)) x)
                    | None => Some x
                    end
  | EFound i addr ok => found i addr ok x
  | EPrune i => match x_chans x i with
                | Some c => match c_state c with Searching => Some x | _ => Some (set_search (without i (x_search x)) x) end
                | None => Some (set_search (without i (x_search x)) x)
                end
  | EUp n => tcp_up n x
  | EValidated n => validated n x
  | ELost n v again => lost again v n x
  | ECreated n i sid ok => created n i sid ok x
  | EDestroyed n sid again => destroyed again n sid x
  | ETick n ok => tick n ok x
  | EClean name a again => clean name a again x
  | ENsCheck ok => ns_check ok [] (x_ns x) x
  | EClose again => close again x
  end.
Definition step (x : ctx) (e : event) : option ctx := bind (handle e x) collect.
Fixpoint run (x : ctx) (es : list event) : option ctx :=
  match es with [] => Some x | e :: es' => bind (step x e) (fun y => run y es') end.
(** a new context with these name servers *)
Definition init (ns : list Z) : ctx :=
  {| x_run := true; x_chans := fun _ => None; x_conns := fun _ => None; x_names := []; x_addr := fun _ => None; x_search := [];
     x_ns := map (fun a => (a, None)) ns; x_nc := 0; x_nn := 0; x_no := 0; x_nw := 0; x_out := [] |}.
