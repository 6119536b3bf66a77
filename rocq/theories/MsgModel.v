(** Model of the messages a client and a server exchange over an established
    connection: how each is written, byte by byte, and how its receiver reads it
    (src/clientget.cpp, clientmon.cpp, clientintrospect.cpp, clientconn.cpp;
    src/serverget.cpp, servermon.cpp, serverintrospect.cpp, serverconn.cpp,
    serverchan.cpp).  Headers and the splitting of the stream into messages are in
    ConnModel; what happens to operations and channels once a message was read is in
    ServerOpModel, ServerMonModel, ClientOpModel and ClientMonModel.

    A writer appends to EvOutBuf, which grows; a reader is a program over
    EvInBuf (SegModel).  Both ends have their own byte order [host].

    Simplifications: M.skip() is a read whose result is ignored (on a buffer which has
    failed it would move on, which nothing after it can observe); numbers from
    from_wire() into a variable without initial value start as [junk].

    No proofs in this file. *)
From Coq Require Import ZArith List Bool.
From Verif Require Import Base WireModel SegModel SegProofs BitMaskModel BitMaskProofs TypeModel TypeProofs ValueModel LookupModel CopyModel.
Import ListNotations.
Local Open Scope Z_scope.

(** CMD_GET, CMD_PUT, CMD_RPC *)
Inductive gkind := KGet | KPut | KRpc.
Definition is_rpc (k : gkind) : bool := match k with KRpc => true | _ => false end.
Definition is_get (k : gkind) : bool := match k with KGet => true | _ => false end.
Definition is_put (k : gkind) : bool := match k with KPut => true | _ => false end.
(** subcmd&bit *)
Definition sub (subcmd bit : Z) : bool := negb (Z.land subcmd bit =? 0).

(** ** What clients write *)

(** sid, ioid and subcmd, with which most requests begin *)
Definition put_ids (host : bool) (a b : Z) (w : wbuf) : wbuf := to_wire_u host 4 b (to_wire_u host 4 a w).
Definition put_sub (host : bool) (sid ioid subcmd : Z) (w : wbuf) : wbuf := to_wire_u host 1 subcmd (put_ids host sid ioid w).
(** to_wire(R, Value::Helper::desc(v)); if(v) to_wire_full(R, v); *)
Definition put_typed (host : bool) (v : option value) (w : wbuf) : outcome wbuf :=
  match v with
  | Some v => obind (to_wire_nodes host (v_nodes v) w) (to_wire_full host v)
  | None => OK (to_wire_nulldesc host w)
  end.

(** Connection::createChannels(), src/clientconn.cpp:97-105 *)
Definition c_create (host : bool) (cid : Z) (name : str) (w : wbuf) : wbuf :=
  to_wire_str host name (to_wire_u host 4 cid (to_wire_u host 2 1 w)).
(** Connection::sendDestroyRequest(), src/clientconn.cpp:116-129; also src/clientget.cpp:297-298, 313-315 *)
Definition c_destroy_request (host : bool) (sid ioid : Z) (w : wbuf) : wbuf := put_ids host sid ioid w.
(** CMD_DESTROY_CHANNEL, src/client.cpp:177-184, src/clientconn.cpp:361-368 *)
Definition c_destroy_channel (host : bool) (sid cid : Z) (w : wbuf) : wbuf := put_ids host sid cid w.
(** GPROp::createOp(), src/clientget.cpp:343-354.  The request of an operation is never empty (ReqModel). *)
Definition c_init (host : bool) (sid ioid : Z) (req : value) (w : wbuf) : outcome wbuf :=
  put_typed host (Some req) (put_sub host sid ioid 8 w).
(** GPROp::sendReply(), src/clientget.cpp:290-321: the request before a PUT for the present value, and the
    execution of GET, PUT of a built Value, and RPC with its argument *)
Definition c_get_first (host : bool) (sid ioid : Z) (w : wbuf) : wbuf := put_sub host sid ioid 64 w.
Definition c_get (host : bool) (sid ioid : Z) (w : wbuf) : wbuf := put_sub host sid ioid 0 w.
Definition c_put (host : bool) (sid ioid : Z) (v : value) (w : wbuf) : outcome wbuf :=
  to_wire_valid host v None (put_sub host sid ioid 0 w).
Definition c_rpc (host : bool) (sid ioid : Z) (arg : option value) (w : wbuf) : outcome wbuf :=
  put_typed host arg (put_sub host sid ioid 0 w).
(** SubscriptionImpl::createOp(), src/clientmon.cpp:330-347; [queue]: queueSize if pipeline *)
Definition c_mon_init (host : bool) (sid ioid : Z) (req : value) (queue : option Z) (w : wbuf) : outcome wbuf :=
  obind (put_typed host (Some req) (put_sub host sid ioid (match queue with Some _ => 136 | None => 8 end) w))
        (fun w' => OK (match queue with Some n => to_wire_u host 4 n w' | None => w' end)).
(** SubscriptionImpl::pause(), src/clientmon.cpp:126-140 *)
Definition c_mon_run (host : bool) (sid ioid : Z) (pause : bool) (w : wbuf) : wbuf :=
  put_sub host sid ioid (if pause then 4 else 68) w.
(** SubscriptionImpl::tickAck(), src/clientmon.cpp:436-448 *)
Definition c_mon_ack (host : bool) (sid ioid n : Z) (w : wbuf) : wbuf :=
  to_wire_u host 4 n (put_sub host sid ioid 128 w).
(** InfoOp::createOp(), src/clientintrospect.cpp:83-93 *)
Definition c_get_field (host : bool) (sid ioid : Z) (w : wbuf) : wbuf := to_wire_cstr host [] (put_ids host sid ioid w).
(** the reply to CONNECTION_VALIDATION, src/clientconn.cpp:278-295 *)
Definition c_validation (host : bool) (method : str) (cred : option value) (w : wbuf) : outcome wbuf :=
  put_typed host cred (to_wire_str host method (to_wire_u host 2 0 (to_wire_u host 2 32767 (to_wire_u host 4 65536 w)))).

(** ** How a server reads them *)

(** What a handler makes of a message: it acts on it, ignores it, or ends the connection with
    bev.reset().  (An exception, DThrow, ends it as well: src/conn.cpp:277-282.) *)
Inductive verdict (A : Type) := Took (a : A) | Ignored | Closed.
Arguments Took {A} a.
Arguments Ignored {A}.
Arguments Closed {A}.

Inductive request :=
| RInit (k : gkind) (sid ioid subcmd : Z) (req : option value)
| RExec (k : gkind) (sid ioid subcmd : Z) (val : option value)   (* None: no Value, or an empty one *)
| RMonInit (sid ioid subcmd : Z) (req : option value) (nack : Z)
| RMonCtl (sid ioid subcmd nack : Z)
| RCreate (names : list (Z * str)) (ok : bool)  (* cid and name of each channel asked for; false: then the connection is closed *)
| RDestroyChan (sid cid : Z)
| RDestroyReq (sid ioid : Z)
| RCancel (sid ioid : Z)
| RGetField (sid ioid : Z) (field : str)
| RMessage (ioid mtype : Z) (msg : str)
| RValidate (method : str) (auth : option value).

(** What ServerConn::opByIOID has to say about an IOID, src/serverget.cpp:412-430, src/servermon.cpp:564-583: nothing or a
    Dead operation; an operation of another kind or in state Creating; a GET, PUT or RPC operation, with the
    type given to connect(), if one was. *)
Inductive sop := OpNone | OpWrong | OpUntyped | OpTyped (nodes : list fdesc).

Definition ffffffff : Z := 4294967295.
Definition value_or_empty (o : option (option value)) : option value := match o with Some v => v | None => None end.
(** if(!M.good()) …; else act *)
Definition if_good {A B} (bad ok : A) (ts : B) : rprog (dres (A * B)) := PGood (fun g => if g then pok (ok, ts) else pok (bad, ts)).

(** ServerConn::handle_GPR(), src/serverget.cpp:338-444, up to where the state of the operation and its channel
    decide (ServerOpModel.init, exec) *)
Definition s_gpr (fuel : nat) (host : bool) (k : gkind) (find : Z -> sop) (ts : tstore) : rprog (dres (verdict request * tstore)) :=
  pbind (p_u host 4 ffffffff) (fun sid =>
  pbind (p_u host 4 ffffffff) (fun ioid =>
  pbind (p_u host 1 0) (fun subcmd =>
  if sub subcmd 8 then
    dbind (from_wire_type_value fuel host ts) (fun r =>
    if_good Closed (Took (RInit k sid ioid subcmd (value_or_empty (fst r)))) (snd r))
  else
    let isput := negb (is_get k) && negb (sub subcmd 64) in
    match find ioid with
    | OpNone => pok (Ignored, ts)
    | OpWrong => pok (Closed, ts)
    | op =>
        match k, op with
        | KRpc, _ =>
            dbind (from_wire_type_value fuel host ts) (fun r =>
            if_good Closed (Took (RExec k sid ioid subcmd (value_or_empty (fst r)))) (snd r))
        | _, OpTyped nodes =>
            if isput then
              match value_new nodes with
              | DOK v => dbind (from_wire_valid fuel host v ts) (fun r =>
                         if_good Closed (Took (RExec k sid ioid subcmd (Some (fst r)))) (snd r))
              | DThrow => PRet DThrow
              | DUB => PRet DUB
              | DFuel => PRet DFuel
              end
            else if_good Closed (Took (RExec k sid ioid subcmd None)) ts
        | _, _ => pok (Closed, ts)
        end
    end))).

(** ServerConn::handle_MONITOR(), src/servermon.cpp:454-583; [find]: OpTyped or OpUntyped for a subscription which
    is not being created *)
Definition s_mon (fuel : nat) (host : bool) (find : Z -> sop) (ts : tstore) : rprog (dres (verdict request * tstore)) :=
  pbind (p_u host 4 ffffffff) (fun sid =>
  pbind (p_u host 4 ffffffff) (fun ioid =>
  pbind (p_u host 1 0) (fun subcmd =>
  if sub subcmd 8 then
    dbind (from_wire_type_value fuel host ts) (fun r =>
    pbind (if sub subcmd 128 then p_u host 4 0 else PRet 0) (fun nack =>
    if_good Closed (Took (RMonInit sid ioid subcmd (value_or_empty (fst r)) nack)) (snd r)))
  else
    pbind (if sub subcmd 128 then p_u host 4 0 else PRet 0) (fun nack =>
    PGood (fun g =>
    if negb g then pok (Closed, ts)
    else match find ioid with
         | OpNone => pok (Ignored, ts)
         | OpWrong => pok (Closed, ts)
         | _ => pok (Took (RMonCtl sid ioid subcmd nack), ts)
         end))))).

(** the loop of ServerConn::handle_CREATE_CHANNEL(), src/serverchan.cpp:269-279, 359-363.  A channel is made for each name
    before the next is read. *)
Fixpoint s_names (host : bool) (n : nat) : rprog (list (Z * str)) :=
  match n with
  | O => PRet []
  | S n' =>
      pbind (p_u host 4 ffffffff) (fun cid =>
      pbind (p_str host []) (fun name =>
      PGood (fun g =>
      if negb g || is_nil name then PRet []
      else pbind (s_names host n') (fun l => PRet ((cid, name) :: l)))))
  end.
Definition s_create (host : bool) (ts : tstore) : rprog (dres (verdict request * tstore)) :=
  pbind (p_u host 2 0) (fun count =>
  pbind (s_names host (Z.to_nat count)) (fun l =>
  PGood (fun g => pok (Took (RCreate l g), ts)))).
(** two numbers, which must be there: handle_DESTROY_CHANNEL(), src/serverchan.cpp:371-380; handle_DESTROY_REQUEST(), src/serverconn.cpp:277-285;
    handle_CANCEL_REQUEST(), :242-250 *)
Definition s_pair (host : bool) (init : Z) (f : Z -> Z -> request) (ts : tstore) : rprog (dres (verdict request * tstore)) :=
  pbind (p_u host 4 init) (fun a =>
  pbind (p_u host 4 init) (fun b =>
  PGood (fun g => if g then pok (Took (f a b), ts) else PRet DThrow))).
(** ServerConn::handle_GET_FIELD(), src/serverintrospect.cpp:124-138 *)
Definition s_get_field (host : bool) (ts : tstore) : rprog (dres (verdict request * tstore)) :=
  pbind (p_u host 4 ffffffff) (fun sid =>
  pbind (p_u host 4 ffffffff) (fun ioid =>
  pbind (p_str host []) (fun field =>
  PGood (fun g => if g then pok (Took (RGetField sid ioid field), ts) else PRet DThrow)))).
(** handle_MESSAGE(), src/serverconn.cpp:303-317, src/clientconn.cpp:439-453 *)
Definition s_message (host : bool) (ts : tstore) : rprog (dres (verdict request * tstore)) :=
  pbind (p_u host 4 0) (fun ioid =>
  pbind (p_u host 1 0) (fun mtype =>
  pbind (p_str host []) (fun msg =>
  PGood (fun g => if g then pok (Took (RMessage ioid mtype msg), ts) else PRet DThrow)))).
(** ServerConn::handle_CONNECTION_VALIDATION(), src/serverconn.cpp:176-195 *)
Definition s_validation (fuel : nat) (host : bool) (ts : tstore) : rprog (dres (verdict request * tstore)) :=
  PTake 8 (fun _ =>
  pbind (p_str host []) (fun method =>
  dbind (from_wire_type_value fuel host ts) (fun r =>
  if_good Closed (Took (RValidate method (value_or_empty (fst r)))) (snd r)))).

(** The switch of ConnBase::bevRead(), src/conn.cpp:248-275, on a server.  Commands without a request (ECHO, AUTHNZ, …) are
    not here; SEARCH over TCP: see SearchModel for the format. *)
Definition s_handle (host : bool) (cmd : Z) (find : Z -> sop) (ts : tstore) (fuel : nat) : rprog (dres (verdict request * tstore)) :=
  if cmd =? 1 then s_validation fuel host ts
  else if cmd =? 7 then s_create host ts
  else if cmd =? 8 then s_pair host ffffffff RDestroyChan ts
  else if cmd =? 10 then s_gpr fuel host KGet find ts
  else if cmd =? 11 then s_gpr fuel host KPut find ts
  else if cmd =? 13 then s_mon fuel host find ts
  else if cmd =? 15 then s_pair host 0 RDestroyReq ts
  else if cmd =? 17 then s_get_field host ts
  else if cmd =? 18 then s_message host ts
  else if cmd =? 20 then s_gpr fuel host KRpc find ts
  else if cmd =? 21 then s_pair host 0 RCancel ts
  else pok (Ignored, ts).
(** A message with body [body] in byte order [be], as bevRead() hands it to the handler.  [fuel] bounds the recursion into
    values, which is never deeper than the number of bytes (C12). *)
Definition server_reads (cmd : Z) (find : Z -> sop) (be : bool) (fuel : nat) (host : bool) (ts : tstore) (body : list Z)
  : dres (verdict request * tstore) :=
  fst (run_flat (s_handle host cmd find ts fuel) (RB body be false)).

(** ** What servers write *)

Definition st_ok : status := Status 0 [] [].
(** Status::error(), src/pvaproto.h:433-436 *)
Definition st_error (msg : str) : status := Status 2 msg [].
Definition st_of (msg : str) : status := if is_nil msg then st_ok else st_error msg.

(** the reply to CREATE_CHANNEL, src/serverchan.cpp:346-361 *)
Definition r_create (host : bool) (cid sid : Z) (sts : status) (w : wbuf) : wbuf := to_wire_status host sts (put_ids host cid sid w).
(** CMD_DESTROY_CHANNEL, src/serverchan.cpp:144-154, 396-405 *)
Definition r_destroy_channel (host : bool) (sid cid : Z) (w : wbuf) : wbuf := put_ids host sid cid w.
(** what ServerGPR::doReply() has to send, src/serverget.cpp:77-117: an error; the type given to connect(), none for an RPC; the
    Value of a GET, with the mask of the request; nothing, after a PUT; the Value of an RPC *)
Inductive gpr_body := BNone | BType (nodes : list fdesc) | BValid (v : value) (mask : bmask) | BTyped (v : option value).
Definition r_gpr (host : bool) (ioid subcmd : Z) (msg : str) (b : gpr_body) (w : wbuf) : outcome wbuf :=
  let w1 := to_wire_status host (st_of msg) (to_wire_u host 1 subcmd (to_wire_u host 4 ioid w)) in
  if negb (status_success (st_of msg)) then OK w1
  else match b with
       | BNone => OK w1
       | BType nodes => to_wire_nodes host nodes w1
       | BValid v mask => to_wire_valid host v (Some mask) w1
       | BTyped v => put_typed host v w1
       end.
(** MonitorOp::doReply(), src/servermon.cpp:131-176: the reply to INIT, with an error or the type; an update; the end *)
Definition r_mon_init (host : bool) (ioid : Z) (msg : str) (nodes : option (list fdesc)) (w : wbuf) : outcome wbuf :=
  let w1 := to_wire_u host 1 8 (to_wire_u host 4 ioid w) in
  match nodes with
  | Some nodes => if is_nil msg then to_wire_nodes host nodes (to_wire_status host st_ok w1) else OK (to_wire_status host (st_error msg) w1)
  | None => OK (to_wire_status host (st_error msg) w1)
  end.
Definition r_mon_update (host : bool) (ioid : Z) (v : value) (mask : bmask) (w : wbuf) : outcome wbuf :=
  obind (to_wire_valid host v (Some mask) (to_wire_u host 1 0 (to_wire_u host 4 ioid w))) (fun w' => OK (to_wire_u host 1 0 w')).
Definition r_mon_finish (host : bool) (ioid : Z) (w : wbuf) : wbuf :=
  to_wire_status host st_ok (to_wire_u host 1 16 (to_wire_u host 4 ioid w)).
(** ServerIntrospect::doReply(), src/serverintrospect.cpp:36-45 *)
Definition r_get_field (host : bool) (ioid : Z) (sts : status) (nodes : option (list fdesc)) (w : wbuf) : outcome wbuf :=
  let w1 := to_wire_status host sts (to_wire_u host 4 ioid w) in
  match nodes with Some nodes => to_wire_nodes host nodes w1 | None => OK w1 end.
(** the first message of a server, src/serverconn.cpp:100-112; the authentication methods it offers *)
Definition t_anonymous : str := [97; 110; 111; 110; 121; 109; 111; 117; 115].
Definition t_ca : str := [99; 97].
Definition r_validation (host : bool) (w : wbuf) : wbuf :=
  to_wire_cstr host t_ca (to_wire_cstr host t_anonymous (to_wire_size host 2 (to_wire_u host 2 32767 (to_wire_u host 4 65536 w)))).
(** auth_complete(), src/serverconn.cpp:159-174 *)
Definition r_validated (host : bool) (sts : status) (w : wbuf) : wbuf := to_wire_status host sts w.

(** ** How a client reads them *)

Inductive reply :=
| AGpr (k : gkind) (ioid subcmd : Z) (sts : status) (data : option value)
| AMon (ioid subcmd : Z) (sts : status) (data : option value) (squashed : bool)
| ACreate (cid sid : Z) (sts : status)
| ADestroyChan (sid cid : Z)
| AGetField (ioid : Z) (sts : status) (data : option value)
| AMessage (ioid mtype : Z) (msg : str)
| AValidation (method : str)      (* the method the client selects *)
| AValidated (sts : status).

(** RequestInfo, src/clientimpl.h:73-82, of an IOID in Connection::opByIOID: the prototype, which is empty before the reply to INIT;
    and whether the free list `fl` exists, which is made with the reply to INIT of a subscription (src/clientmon.cpp:666-671). *)
Record rinfo := { ri_proto : option value; ri_fl : bool }.

(** Connection::handle_GPR(), src/clientget.cpp:392-454.  cache_sync() (CopyModel) and the state of the operation (ClientOpModel) come
    after.  In a message which ends too early [junk] is what `ioid` and `sts` happen to hold. *)
Definition c_gpr (fuel : nat) (host : bool) (junk : Z * status) (k : gkind) (find : Z -> option rinfo) (ts : tstore)
  : rprog (dres (verdict reply * tstore)) :=
  pbind (p_u host 4 (fst junk)) (fun ioid =>
  pbind (p_u host 1 0) (fun subcmd =>
  pbind (p_status host (snd junk)) (fun sts =>
  let init := sub subcmd 8 in
  let get := sub subcmd 64 in
  PGood (fun g0 =>
  dbind (if g0 && negb (is_rpc k) && init && status_success sts then from_wire_type host ts
         else if g0 && is_rpc k && negb init && status_success sts then from_wire_type_value fuel host ts
         else pok (None, ts)) (fun r =>
  PGood (fun g1 =>
  if negb g1 then pok (Closed, snd r)
  else match find ioid with
       | None => pok (Ignored, snd r)
       | Some info =>
           if negb (negb (is_rpc k) && init && status_success sts)
              && negb init && (is_get k || (is_put k && get)) && status_success sts
           then match ri_proto info with
                | None => pok (Took (AGpr k ioid subcmd sts None), snd r)
                | Some p =>
                    match value_new (v_nodes p) with
                    | DOK v => dbind (from_wire_valid fuel host v (snd r)) (fun r2 =>
                               if_good Closed (Took (AGpr k ioid subcmd sts (Some (fst r2)))) (snd r2))
                    | DThrow => PRet DThrow
                    | DUB => PRet DUB
                    | DFuel => PRet DFuel
                    end
                end
           else pok (Took (AGpr k ioid subcmd sts (value_or_empty (fst r))), snd r)
       end)))))).

(** a Value as new of the type of the prototype, and an update read into it.  Values of the free list are as new: RequestFL,
    src/clientmon.cpp:505-543, C60. *)
Definition overrun (m : bmask) : bool := existsb (fun x => negb (x =? 0)) (bm_words m).
Definition c_update (fuel : nat) (host : bool) (ioid subcmd : Z) (sts : status) (info : rinfo) (ts : tstore)
  : rprog (dres (verdict reply * tstore)) :=
  if negb (ri_fl info) then PRet DUB                    (* info->fl->lock, :503: a null pointer *)
  else match ri_proto info with
  | None => PRet DUB                                    (* cache_sync() of two empty Values: desc->size(), src/data.cpp:1212 *)
  | Some p =>
      match value_new (v_nodes p) with
      | DOK v => dbind (from_wire_valid fuel host v ts) (fun r =>
                 pbind (p_mask host bm_empty) (fun m =>
                 if_good Closed (Took (AMon ioid subcmd sts (Some (fst r)) (overrun m))) (snd r)))
      | DThrow => PRet DThrow
      | DUB => PRet DUB
      | DFuel => PRet DFuel
      end
  end.
(** Connection::handle_MONITOR(), src/clientmon.cpp:464-561, up to where the state of the subscription decides
    (ClientMonModel).  [last]: what M.empty() says after the Status and type.  On EvInBuf that is whether the slice at hand ends
    there; in [c_mon] whether the message does, which is the same unless a Status of more than 1000 bytes ends with the slice. *)
Definition c_mon_head (host : bool) (ts : tstore) : rprog (dres (Z * Z * status * option (option value) * tstore)) :=
  pbind (p_u host 4 0) (fun ioid =>
  pbind (p_u host 1 0) (fun subcmd =>
  pbind (if sub subcmd 8 || sub subcmd 16 then p_status host st_ok else PRet st_ok) (fun sts =>
  dbind (if sub subcmd 8 && status_success sts then from_wire_type host ts else pok (None, ts)) (fun r =>
  pok (ioid, subcmd, sts, fst r, snd r))))).
Definition c_mon_body (last : bool) (fuel : nat) (host : bool) (find : Z -> option rinfo) (ts : tstore) : rprog (dres (verdict reply * tstore)) :=
  dbind (c_mon_head host ts) (fun h =>
  let '(ioid, subcmd, sts, data, ts1) := h in
  PGood (fun g =>
  if negb g then pok (Closed, ts1)
  else match find ioid with
  | None => pok (Ignored, ts1)
  | Some info =>
      if negb (status_success sts) then pok (Took (AMon ioid subcmd sts None false), ts1)
      else if sub subcmd 8 then pok (Took (AMon ioid subcmd sts (value_or_empty data) false), ts1)
      else if negb (sub subcmd 16) || negb last then c_update fuel host ioid subcmd sts info ts1
      else pok (Took (AMon ioid subcmd sts None false), ts1)
  end)).
Definition c_mon (fuel : nat) (host : bool) (find : Z -> option rinfo) (ts : tstore) (b : rbuf) : dres (verdict reply * tstore) :=
  fst (run_flat (c_mon_body (is_nil (rd (snd (run_flat (c_mon_head host ts) b)))) fuel host find ts) b).

(** Connection::handle_CREATE_CHANNEL(), src/clientconn.cpp:328-347 *)
Definition c_created (host : bool) (junk : Z) (ts : tstore) : rprog (dres (verdict reply * tstore)) :=
  pbind (p_u host 4 junk) (fun cid =>
  pbind (p_u host 4 junk) (fun sid =>
  pbind (p_status host st_ok) (fun sts =>
  if_good Closed (Took (ACreate cid sid sts)) ts))).
(** Connection::handle_DESTROY_CHANNEL(), src/clientconn.cpp:404-420 *)
Definition c_destroyed (host : bool) (ts : tstore) : rprog (dres (verdict reply * tstore)) :=
  pbind (p_u host 4 0) (fun sid =>
  pbind (p_u host 4 0) (fun cid =>
  if_good Closed (Took (ADestroyChan sid cid)) ts)).
(** Connection::handle_GET_FIELD(), src/clientintrospect.cpp:115-134 *)
Definition c_field (host : bool) (ts : tstore) : rprog (dres (verdict reply * tstore)) :=
  pbind (p_u host 4 0) (fun ioid =>
  pbind (p_status host (Status 3 [] [])) (fun sts =>
  dbind (if status_success sts then from_wire_type host ts else pok (None, ts)) (fun r =>
  if_good Closed (Took (AGetField ioid sts (value_or_empty (fst r)))) (snd r)))).
(** Connection::handle_MESSAGE(), src/clientconn.cpp:439-453 *)
Definition c_message (host : bool) (ts : tstore) : rprog (dres (verdict reply * tstore)) :=
  pbind (p_u host 4 0) (fun ioid =>
  pbind (p_u host 1 0) (fun mtype =>
  pbind (p_str host []) (fun msg =>
  PGood (fun g => if g then pok (Took (AMessage ioid mtype msg), ts) else PRet DThrow)))).
(** Connection::handle_CONNECTION_VALIDATION(), src/clientconn.cpp:207-250: the choice among the methods offered *)
Fixpoint c_methods (host : bool) (n : nat) (selected : str) : rprog str :=
  match n with
  | O => PRet selected
  | S n' => pbind (p_str host []) (fun m =>
            c_methods host n' (if str_eqb m t_ca || (str_eqb m t_anonymous && negb (str_eqb selected t_ca)) then m else selected))
  end.
Definition c_validate (host : bool) (ts : tstore) : rprog (dres (verdict reply * tstore)) :=
  PTake 6 (fun _ =>
  pbind (p_size host 0 false) (fun n =>
  pbind (c_methods host (Z.to_nat n) []) (fun selected =>
  if_good Closed (Took (AValidation (if is_nil selected then t_anonymous else selected))) ts))).
(** Connection::handle_CONNECTION_VALIDATED(), src/clientconn.cpp:298-316 *)
Definition c_validated (host : bool) (ts : tstore) : rprog (dres (verdict reply * tstore)) :=
  pbind (p_status host st_ok) (fun sts => if_good Closed (Took (AValidated sts)) ts).

(** The switch of ConnBase::bevRead() on a client, but for MONITOR; SEARCH_RESPONSE: SearchModel. *)
Definition c_handle (host : bool) (cmd : Z) (junk : Z * status) (find : Z -> option rinfo) (ts : tstore) (fuel : nat)
  : rprog (dres (verdict reply * tstore)) :=
  if cmd =? 1 then c_validate host ts
  else if cmd =? 7 then c_created host (fst junk) ts
  else if cmd =? 8 then c_destroyed host ts
  else if cmd =? 9 then c_validated host ts
  else if cmd =? 10 then c_gpr fuel host junk KGet find ts
  else if cmd =? 11 then c_gpr fuel host junk KPut find ts
  else if cmd =? 17 then c_field host ts
  else if cmd =? 18 then c_message host ts
  else if cmd =? 20 then c_gpr fuel host junk KRpc find ts
  else pok (Ignored, ts).
Definition client_reads (cmd : Z) (junk : Z * status) (find : Z -> option rinfo) (be : bool) (fuel : nat) (host : bool) (ts : tstore) (body : list Z)
  : dres (verdict reply * tstore) :=
  if cmd =? 13 then c_mon fuel host find ts (RB body be false)
  else fst (run_flat (c_handle host cmd junk find ts fuel) (RB body be false)).

(** ** Credentials *)

(** the value [hops] lead to (LookupModel) *)
Fixpoint follow (hops : list (nat * nat)) (v : value) : option value :=
  match hops with
  | [] => Some v
  | (i, e) :: hops' =>
      match nth_error (v_cells v) i with
      | Some (_, SSel (Some (_, w))) => follow hops' w
      | Some (_, SArr (AVals l)) => match nth_error l e with Some (Some w) => follow hops' w | _ => None end
      | _ => None
      end
  end.
(** auth["user"].as<std::string>(fn), src/serverconn.cpp:203-206: what fn is called with, None if it is not called *)
Definition t_user : str := [117; 115; 101; 114].
Definition user_of (fuel : nat) (fp : fpu) (auth : option value) : option str :=
  match auth with
  | None => None
  | Some v =>
      match lookup_expr fuel false t_user v 0 with
      | (_, At hops j) =>
          match follow hops v with
          | Some w => match copy_out fuel fp w j WStr with CV (PStr u) => Some u | _ => None end
          | None => None
          end
      | _ => None
      end
  end.

(** buildCAMethod(), src/client.cpp, and what a client fills in, src/clientconn.cpp:254-269 *)
Definition t_host : str := [104; 111; 115; 116].
Definition ca_method : list fdesc := flatten (Mem tc_Struct [] [] [Mem tc_String t_user [] []; Mem tc_String t_host [] []]).
Definition ca_cred (user host : str) : value := Val ca_method [(false, SNull); (true, SStr user); (true, SStr host)].

(** what a server holds about a client, ClientCredentials, src/pvxs/source.h *)
Record creds := { cr_method : str; cr_account : str }.
(** ServerConn::ServerConn(), src/serverconn.cpp:73-80 *)
Definition new_creds : creds := {| cr_method := t_anonymous; cr_account := t_anonymous |}.
(** the rest of ServerConn::handle_CONNECTION_VALIDATION(), src/serverconn.cpp:200-236, and the Status sent back.
    [user]: what auth["user"].as<std::string>() gives, None if it gives nothing. *)
Definition t_unadvertised : str :=
  [67; 108; 105; 101; 110; 116; 32; 115; 101; 108; 101; 99; 116; 115; 32; 117; 110; 97; 100; 118; 101; 114; 116; 105; 115; 101; 100; 32; 97; 117; 116; 104].
Definition authenticate (c : creds) (method : str) (user : option str) : creds * status :=
  let c1 := match user with
            | Some u => if str_eqb method t_ca then {| cr_method := method; cr_account := u |} else c
            | None => c
            end in
  let c2 := if is_nil (cr_method c1) then new_creds else c1 in
  (c2, if negb (str_eqb method t_ca) && negb (str_eqb method t_anonymous) then st_error t_unadvertised else st_ok).
