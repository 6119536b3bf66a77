(** Model of the channels and of the GET, PUT, RPC and GET_FIELD operations of one
    connection of a server (src/serverconn.cpp, src/serverchan.cpp,
    src/serverget.cpp, src/serverintrospect.cpp).

    All of this code runs on the one worker thread of the server: messages are
    handled there, and the methods of ConnectOp, ExecOp and ChannelControl, called
    from any thread, are forwarded to it with evbase::call() or evbase::dispatch()
    (EvBaseModel).  So a history is a list of steps of that thread in any order.

    Simplifications: operations of type MONITOR, which share the tables, are in
    ServerMonModel; the contents of messages are reduced to what decides
    control flow; a message which can not be decoded is the step [Bad]; the
    handlers of a channel are installed before onCreate() returns; tables are lists
    in order of insertion, where std::map iterates in order of key.

    No proofs in this file. *)
From Coq Require Import List Bool Arith NArith.
Import ListNotations.

(** pva_app_msg_t: CMD_GET, CMD_PUT, CMD_RPC, CMD_GET_FIELD. *)
Inductive kind := Get | Put | Rpc | Info.
(** ServerOp::state, src/serverconn.h:41-46 *)
Inductive ostate := Creating | Idle | Executing | Dead.

(** ServerOp and ServerGPR, src/serverconn.h:33-58, src/serverget.cpp:146-158.
    [o_want]: subcmd&0x40; [o_last]: lastRequest; [o_typed]: type is set; [o_onget] …
    [o_close]: the std::function of that name is set. *)
Record op := {
  o_ioid : N; o_chan : nat; o_kind : kind; o_st : ostate;
  o_want : bool; o_last : bool; o_typed : bool;
  o_onget : bool; o_onput : bool; o_cancel : bool; o_close : bool
}.
(** ServerChan, src/serverconn.h:60-92. [c_open]: state==Active, otherwise Destroy. *)
Record chan := {
  c_sid : N; c_cid : N; c_open : bool; c_ops : list (N * nat);
  c_onop : bool; c_onrpc : bool; c_close : bool
}.
(** ServerConn, src/serverconn.h.  [objs], [chans]: every operation and channel ever
    made, by number; [by_ioid], [by_sid]: the tables ServerConn::opByIOID, chanBySID.
    [up] is false once ServerConn::cleanup() has run. *)
Record conn := {
  up : bool; next_sid : N; by_sid : list (N * nat); by_ioid : list (N * nat);
  objs : list op; chans : list chan
}.
(** src/serverconn.h: uint32_t nextSID = 0x07050301 *)
Definition new_conn : conn :=
  {| up := true; next_sid := 117768961; by_sid := []; by_ioid := []; objs := []; chans := [] |}.

(** ** Maps *)
(** std::map::find *)
Fixpoint get (k : N) (m : list (N * nat)) : option nat :=
  match m with [] => None | (k', v) :: m' => if N.eqb k k' then Some v else get k m' end.
(** std::map::erase(key) *)
Definition del (k : N) (m : list (N * nat)) : list (N * nat) := filter (fun e => negb (N.eqb k (fst e))) m.
(** map[key] = v *)
Definition put (k : N) (v : nat) (m : list (N * nat)) : list (N * nat) := (k, v) :: del k m.
Definition holds (v : nat) (m : list (N * nat)) : bool := existsb (fun e => snd e =? v) m.
Fixpoint upd {A} (i : nat) (x : A) (l : list A) : list A :=
  match l, i with [], _ => [] | _ :: l', O => x :: l' | a :: l', S i' => a :: upd i' x l' end.

(** ** Identifiers *)
Definition W32 : N := 4294967296.
(** uint32_t increment *)
Definition succ32 (n : N) : N := N.modulo (n + 1) W32.
(** do { id = next++; } while(used.find(id)!=used.end());
    src/serverchan.cpp:288-291 (SID), src/client.cpp:132-134 (IOID).
    As many rounds as there are entries, plus one, are enough (C34). *)
Fixpoint pick (n : nat) (next : N) (used : list N) : option (N * N) :=
  match n with
  | O => None
  | S n' => if existsb (N.eqb next) used then pick n' (succ32 next) used else Some (next, succ32 next)
  end.
Definition fresh (next : N) (used : list N) : option (N * N) := pick (S (length used)) next used.
(** while(used.find(next)!=used.end()) next++; id = next;
    src/client.cpp:368-371 (CID).  The counter stays at the value handed out. *)
Definition fresh_cid (next : N) (used : list N) : option (N * N) :=
  match fresh next used with Some (id, _) => Some (id, id) | None => None end.

(** ** What can be seen *)
(** which handler an execute request reaches, src/serverget.cpp:470-491 *)
Inductive handler := HRpc | HPut | HGet | HMissing | HNone.
Inductive output :=
| SentCreate (cid : N) (sid : option N)     (* reply to CREATE_CHANNEL, None: refused *)
| Claimed (c : nat) (cb : bool)             (* the [c]th channel was made, with an onClose handler or not *)
| SentDestroy (sid cid : N)                 (* DESTROY_CHANNEL to the client *)
| SentInit (o : nat) (ok : bool)            (* reply to INIT *)
| SentExec (o : nat) (ok : bool) (h : nat)  (* reply to an execute request, given by handle [h] *)
| SentInfo (o : nat) (ok : bool)            (* reply to GET_FIELD *)
| Opened (o : nat)                          (* an INIT or GET_FIELD accepted *)
| Started (o : nat) (last : bool) (h : handler) (* an execute request accepted *)
| Stopped (o : nat)                         (* an execution in progress cancelled *)
| CancelCb (o : nat)                        (* onCancel called *)
| CloseSet (o : nat)                        (* an onClose handler installed *)
| CloseCb (o : nat)                         (* onClose called *)
| ChanCloseCb (c : nat)
| Down.                                     (* the connection was closed *)

(** ** Objects *)
Definition set_op (i : nat) (o : op) (s : conn) : conn :=
  {| up := up s; next_sid := next_sid s; by_sid := by_sid s; by_ioid := by_ioid s; objs := upd i o (objs s); chans := chans s |}.
Definition set_chan (i : nat) (c : chan) (s : conn) : conn :=
  {| up := up s; next_sid := next_sid s; by_sid := by_sid s; by_ioid := by_ioid s; objs := objs s; chans := upd i c (chans s) |}.
Definition set_ioids (m : list (N * nat)) (s : conn) : conn :=
  {| up := up s; next_sid := next_sid s; by_sid := by_sid s; by_ioid := m; objs := objs s; chans := chans s |}.
Definition with_ops (m : list (N * nat)) (c : chan) : chan :=
  {| c_sid := c_sid c; c_cid := c_cid c; c_open := c_open c; c_ops := m; c_onop := c_onop c; c_onrpc := c_onrpc c; c_close := c_close c |}.
Definition with_st (t : ostate) (o : op) : op :=
  {| o_ioid := o_ioid o; o_chan := o_chan o; o_kind := o_kind o; o_st := t; o_want := o_want o; o_last := o_last o;
     o_typed := o_typed o; o_onget := o_onget o; o_onput := o_onput o; o_cancel := o_cancel o; o_close := o_close o |}.
(** ServerOp::cleanup(): state = Dead, onCancel = nullptr, onClose moved out *)
Definition dead (o : op) : op :=
  {| o_ioid := o_ioid o; o_chan := o_chan o; o_kind := o_kind o; o_st := Dead; o_want := o_want o; o_last := o_last o;
     o_typed := o_typed o; o_onget := o_onget o; o_onput := o_onput o; o_cancel := false; o_close := false |}.
Definition with_typed (o : op) : op :=
  {| o_ioid := o_ioid o; o_chan := o_chan o; o_kind := o_kind o; o_st := o_st o; o_want := o_want o; o_last := o_last o;
     o_typed := true; o_onget := o_onget o; o_onput := o_onput o; o_cancel := o_cancel o; o_close := o_close o |}.

(** erase(ioid) in the table of a channel, if it exists *)
Definition chan_forget (c : nat) (ioid : N) (s : conn) : conn :=
  match nth_error (chans s) c with
  | Some ch => set_chan c (with_ops (del ioid (c_ops ch)) ch) s
  | None => s
  end.

(** A ServerChan is owned by ServerConn::chanBySID only: the weak_ptr of an operation
    or of a ChannelControl can be locked while it is there. *)
Definition chan_alive (s : conn) (c : nat) : bool := holds c (by_sid s).
(** An operation is owned by the tables of its connection and of its channel: the
    weak_ptr of ConnectOp and ExecOp objects can be locked while it is in one. *)
Definition alive (s : conn) (i : nat) (o : op) : bool :=
  holds i (by_ioid s) ||
  (chan_alive s (o_chan o) &&
   match nth_error (chans s) (o_chan o) with Some ch => holds i (c_ops ch) | None => false end).

(** ServerOp::cleanup(), src/serverconn.cpp:481-514.  An operation already Dead is left alone. *)
Definition op_cleanup (i : nat) (s : conn) : conn * list output :=
  match nth_error (objs s) i with
  | None => (s, [])
  | Some o =>
    match o_st o with
    | Dead => (s, [])
    | st =>
      let s1 := set_op i (dead o) s in
      let s2 := chan_forget (o_chan o) (o_ioid o) s1 in
      (set_ioids (del (o_ioid o) (by_ioid s2)) s2,
       (match st with Executing => Stopped i :: (if o_cancel o then [CancelCb i] else []) | _ => [] end)
         ++ (if o_close o then [CloseCb i] else []))
    end
  end.
Fixpoint ops_cleanup (l : list (N * nat)) (s : conn) : conn * list output :=
  match l with
  | [] => (s, [])
  | (_, i) :: l' =>
    let '(s1, o1) := op_cleanup i s in
    let '(s2, o2) := ops_cleanup l' s1 in (s2, o1 ++ o2)
  end.
(** ServerChan::cleanup(), src/serverchan.cpp:43-60 *)
Definition chan_cleanup (c : nat) (s : conn) : conn * list output :=
  match nth_error (chans s) c with
  | None => (s, [])
  | Some ch =>
    if c_open ch then
      let ch' := {| c_sid := c_sid ch; c_cid := c_cid ch; c_open := false; c_ops := [];
                    c_onop := c_onop ch; c_onrpc := c_onrpc ch; c_close := false |} in
      let '(s1, o1) := ops_cleanup (c_ops ch) (set_chan c ch' s) in
      (s1, o1 ++ (if c_close ch then [ChanCloseCb c] else []))
    else (s, [])
  end.
Fixpoint chans_cleanup (l : list (N * nat)) (s : conn) : conn * list output :=
  match l with
  | [] => (s, [])
  | (_, c) :: l' =>
    let '(s1, o1) := chan_cleanup c s in
    let '(s2, o2) := chans_cleanup l' s1 in (s2, o1 ++ o2)
  end.
(** ServerConn::cleanup(), src/serverconn.cpp:346-362; the maps are moved out first. *)
Definition conn_cleanup (s : conn) : conn * list output :=
  let s0 := {| up := false; next_sid := next_sid s; by_sid := []; by_ioid := []; objs := objs s; chans := chans s |} in
  let '(s1, o1) := ops_cleanup (by_ioid s) s0 in
  let '(s2, o2) := chans_cleanup (by_sid s) s1 in
  (s2, Down :: o1 ++ o2).

(** ** Replies *)
(** the Value given to ExecOp::reply(): none, of the type given to connect(), of another type *)
Inductive rvalue := NoValue | SameType | OtherType.
(** the checks of ServerGPR::doReply(), src/serverget.cpp:52-72; false: throws *)
Definition reply_ok (o : op) (v : rvalue) : bool :=
  match o_kind o, v with
  | Get, SameType => true
  | Get, _ => false
  | Put, SameType => o_want o
  | Put, NoValue => negb (o_want o)
  | Put, OtherType => false
  | _, _ => true
  end.
(** ServerGPR::doReply(), src/serverget.cpp:37-124.  [v]: None for an error.
    Where it ends in Dead, ServerOp::cleanup() (:120-122) finds it so and does nothing. *)
Definition gpr_reply (i h : nat) (v : option rvalue) (s : conn) : conn * list output :=
  match nth_error (objs s) i with
  | None => (s, [])
  | Some o =>
    if alive s i o && chan_alive s (o_chan o) && up s then
      match o_st o with
      | Dead | Idle => (s, [])
      | Executing =>
        match v with
        | None => (set_op i (with_st Idle o) s, [SentExec i false h])
        | Some r =>
          if reply_ok o r then (set_op i (with_st (if o_last o then Dead else Idle) o) s, [SentExec i true h])
          else (s, [])
        end
      | Creating =>
        match v with
        | None => (set_op i (with_st Dead o) s, [SentInit i false])
        | Some _ => (set_op i (with_st Idle o) s, [SentInit i true])
        end
      end
    else (s, [])
  end.
(** ServerIntrospect::doReply(), src/serverintrospect.cpp:24-50 *)
Definition info_reply (i : nat) (ok : bool) (s : conn) : conn * list output :=
  match nth_error (objs s) i with
  | None => (s, [])
  | Some o =>
    if alive s i o && chan_alive s (o_chan o) && up s then
      match o_st o with
      | Executing =>
        let s1 := set_op i (with_st Dead o) s in
        let s2 := set_ioids (del (o_ioid o) (by_ioid s1)) s1 in
        (chan_forget (o_chan o) (o_ioid o) s2, [SentInfo i ok])
      | _ => (s, [])
      end
    else (s, [])
  end.

(** ** Steps *)
Inductive event :=
| Create (cid : N) (h : option (bool * bool * bool))  (* one name of CREATE_CHANNEL; handlers (op, rpc, close) of the source which claims it *)
| DestroyChan (sid cid : N)             (* DESTROY_CHANNEL *)
| CloseChan (c : nat)                   (* ChannelControl::close() *)
| Init (k : kind) (sid ioid : N)        (* GET, PUT, RPC with 0x08 *)
| Connect (i : nat) (proto mask : bool) (* ConnectOp::connect(), with a prototype, and request2mask() succeeds *)
| ConnError (i : nat)                   (* ConnectOp::error(), or the ConnectOp destroyed *)
| OnGet (i : nat) | OnPut (i : nat) | OnClose (i : nat) | OnCancel (i : nat)
| Exec (k : kind) (ioid : N) (want last : bool)  (* GET, PUT, RPC without 0x08 *)
| Reply (i h : nat) (v : rvalue)        (* ExecOp::reply() of the [h]th ExecOp made for the operation *)
| Fail (i h : nat)                      (* ExecOp::error() *)
| Cancel (sid ioid : N)                 (* CANCEL_REQUEST *)
| DestroyReq (sid ioid : N)             (* DESTROY_REQUEST *)
| GetField (sid ioid : N)               (* GET_FIELD *)
| InfoReply (i : nat) (ok : bool)       (* connect() or error() of the ConnectOp of a GET_FIELD, or its destruction *)
| Bad                                   (* a message which can not be decoded *)
| Drop.                                 (* connection lost *)

Definition new_op (k : kind) (st : ostate) (c : nat) (ioid : N) : op :=
  {| o_ioid := ioid; o_chan := c; o_kind := k; o_st := st; o_want := false; o_last := false; o_typed := false;
     o_onget := false; o_onput := false; o_cancel := false; o_close := false |}.
(** opByIOID[ioid] = op; chan->opByIOID[ioid] = op; src/serverget.cpp:384-385, src/serverintrospect.cpp:153-154 *)
Definition add_op (o : op) (s : conn) : conn :=
  let i := length (objs s) in
  let s1 := {| up := up s; next_sid := next_sid s; by_sid := by_sid s; by_ioid := put (o_ioid o) i (by_ioid s);
               objs := objs s ++ [o]; chans := chans s |} in
  match nth_error (chans s) (o_chan o) with
  | Some ch => set_chan (o_chan o) (with_ops (put (o_ioid o) i (c_ops ch)) ch) s1
  | None => s1
  end.

(** ServerConn::handle_CREATE_CHANNEL() for one name, src/serverchan.cpp:270-358.  The
    choice among the sources is SourceModel's. *)
Definition create (cid : N) (h : option (bool * bool * bool)) (s : conn) : conn * list output :=
  if N.eqb (N.of_nat (length (by_sid s))) 4294967295 then (s, [SentCreate cid None])
  else match fresh (next_sid s) (map fst (by_sid s)) with
       | None => (s, [])
       | Some (sid, next) =>
         match h with
         | Some (hop, hrpc, hclose) =>
           ({| up := up s; next_sid := next; by_sid := put sid (length (chans s)) (by_sid s); by_ioid := by_ioid s;
               objs := objs s;
               chans := chans s ++ [{| c_sid := sid; c_cid := cid; c_open := true; c_ops := []; c_onop := hop; c_onrpc := hrpc; c_close := hclose |}] |},
            [SentCreate cid (Some sid); Claimed (length (chans s)) hclose])
         | None =>
           ({| up := up s; next_sid := next; by_sid := by_sid s; by_ioid := by_ioid s; objs := objs s; chans := chans s |},
            [SentCreate cid None])
         end
       end.

(** the INIT part of ServerConn::handle_GPR(), src/serverget.cpp:356-408 *)
Definition init (k : kind) (sid ioid : N) (s : conn) : conn * list output :=
  match get sid (by_sid s), get ioid (by_ioid s) with
  | Some c, None =>
    let i := length (objs s) in
    let s1 := add_op (new_op k Creating c ioid) s in
    match k with
    | Rpc => let '(s2, o) := gpr_reply i 0 (Some NoValue) s1 in (s2, Opened i :: o)
    | _ => (s1, [Opened i])   (* onOp(), or ConnectOp::error() when there is none: a later ConnError *)
    end
  | _, _ => conn_cleanup s
  end.

(** the EXEC part of ServerConn::handle_GPR(), src/serverget.cpp:410-505 *)
Definition exec (k : kind) (ioid : N) (want last : bool) (s : conn) : conn * list output :=
  match get ioid (by_ioid s) with
  | None => (s, [])
  | Some i =>
    match nth_error (objs s) i with
    | None => (s, [])
    | Some o =>
      match o_st o, o_kind o with
      | Dead, _ => (s, [])
      | _, Info => conn_cleanup s                 (* dynamic_pointer_cast fails *)
      | Creating, _ => conn_cleanup s
      | st, _ =>
        if match k with Rpc => false | _ => negb (o_typed o) end then conn_cleanup s
        else match nth_error (chans s) (o_chan o) with
        | None => (s, [])
        | Some ch =>
          match st with
          | Idle =>
            let isput := match k with Get => false | _ => negb want end in
            let h := match k, isput with
                     | Rpc, true => if c_onrpc ch then HRpc else HMissing
                     | Put, true => if o_onput o then HPut else HMissing
                     | Rpc, false => HNone
                     | _, false => if o_onget o then HGet else HMissing
                     | _, true => HNone
                     end in
            (set_op i {| o_ioid := o_ioid o; o_chan := o_chan o; o_kind := o_kind o; o_st := Executing; o_want := want;
                         o_last := o_last o || last; o_typed := o_typed o; o_onget := o_onget o; o_onput := o_onput o;
                         o_cancel := o_cancel o; o_close := o_close o |} s,
             [Started i (o_last o || last) h])
          | _ => (s, [])
          end
        end
      end
    end
  end.

(** ServerConn::handle_CANCEL_REQUEST(), src/serverconn.cpp:242-275 *)
Definition cancel (sid ioid : N) (s : conn) : conn * list output :=
  match get ioid (by_ioid s) with
  | None => (s, [])
  | Some i =>
    match nth_error (objs s) i with
    | None => (s, [])
    | Some o =>
      match nth_error (chans s) (o_chan o) with
      | None => (s, [])
      | Some ch =>
        if chan_alive s (o_chan o) && N.eqb (c_sid ch) sid then
          match o_st o with
          | Executing => (set_op i (with_st Idle o) s, Stopped i :: (if o_cancel o then [CancelCb i] else []))
          | _ => (s, [])
          end
        else (s, [])
      end
    end
  end.

(** ServerConn::handle_DESTROY_REQUEST(), src/serverconn.cpp:277-301 *)
Definition destroy_req (sid ioid : N) (s : conn) : conn * list output :=
  let s1 := match get sid (by_sid s), get ioid (by_ioid s) with
            | Some c, Some _ => chan_forget c ioid s
            | _, _ => s
            end in
  match get ioid (by_ioid s) with
  | None => (s1, [])
  | Some i => op_cleanup i (set_ioids (del ioid (by_ioid s1)) s1)
  end.

(** ServerConn::handle_DESTROY_CHANNEL(), src/serverchan.cpp:371-410 *)
Definition destroy_chan (sid cid : N) (s : conn) : conn * list output :=
  match get sid (by_sid s) with
  | None => (s, [])
  | Some c => let '(s1, o) := chan_cleanup c s in (s1, o ++ [SentDestroy sid cid])
  end.

(** ServerChannelControl::close(), src/serverchan.cpp:130-156 *)
Definition close_chan (c : nat) (s : conn) : conn * list output :=
  if chan_alive s c then
    match nth_error (chans s) c with
    | None => (s, [])
    | Some ch =>
      let '(s1, o) := chan_cleanup c s in
      (s1, (if up s && c_open ch then [SentDestroy (c_sid ch) (c_cid ch)] else []) ++ o)
    end
  else (s, []).

(** ServerConn::handle_GET_FIELD(), src/serverintrospect.cpp:124-166; the reply when
    there is no onOp comes from ~ServerIntrospectControl. *)
Definition get_field (sid ioid : N) (s : conn) : conn * list output :=
  match get sid (by_sid s), get ioid (by_ioid s) with
  | Some c, None =>
    let i := length (objs s) in
    let s1 := add_op (new_op Info Executing c ioid) s in
    match nth_error (chans s) c with
    | Some ch => if c_onop ch then (s1, [Opened i])
                 else let '(s2, o) := info_reply i false s1 in (s2, Opened i :: o)
    | None => (s1, [Opened i])
    end
  | _, _ => (s, [])
  end.

(** ServerGPRConnect::connect(), src/serverget.cpp:181-204 *)
Definition connect (i : nat) (proto mask : bool) (s : conn) : conn * list output :=
  match nth_error (objs s) i with
  | None => (s, [])
  | Some o =>
    if alive s i o then
      match o_st o, o_kind o with
      | Creating, Rpc => if o_typed o then (s, []) else
          if proto then (if mask then gpr_reply i 0 (Some NoValue) (set_op i (with_typed o) s) else (set_op i (with_typed o) s, []))
          else gpr_reply i 0 (Some NoValue) s
      | Creating, _ =>
        if proto then
          if o_typed o then (s, [])
          else if mask then gpr_reply i 0 (Some NoValue) (set_op i (with_typed o) s)
               else (set_op i (with_typed o) s, [])
        else (s, [])
      | _, _ => (s, [])
      end
    else (s, [])
  end.

(** onGet() …, src/serverget.cpp:221-250; onCancel(), :306-314; onClose() also
    src/serverintrospect.cpp:98-106 *)
Definition set_fn (f : op -> op) (out : list output) (i : nat) (s : conn) : conn * list output :=
  match nth_error (objs s) i with
  | None => (s, [])
  | Some o => if alive s i o then (set_op i (f o) s, out) else (s, [])
  end.
Definition with_onget (o : op) : op :=
  {| o_ioid := o_ioid o; o_chan := o_chan o; o_kind := o_kind o; o_st := o_st o; o_want := o_want o; o_last := o_last o;
     o_typed := o_typed o; o_onget := true; o_onput := o_onput o; o_cancel := o_cancel o; o_close := o_close o |}.
Definition with_onput (o : op) : op :=
  {| o_ioid := o_ioid o; o_chan := o_chan o; o_kind := o_kind o; o_st := o_st o; o_want := o_want o; o_last := o_last o;
     o_typed := o_typed o; o_onget := o_onget o; o_onput := true; o_cancel := o_cancel o; o_close := o_close o |}.
Definition with_cancel (o : op) : op :=
  {| o_ioid := o_ioid o; o_chan := o_chan o; o_kind := o_kind o; o_st := o_st o; o_want := o_want o; o_last := o_last o;
     o_typed := o_typed o; o_onget := o_onget o; o_onput := o_onput o; o_cancel := true; o_close := o_close o |}.
Definition with_close (o : op) : op :=
  {| o_ioid := o_ioid o; o_chan := o_chan o; o_kind := o_kind o; o_st := o_st o; o_want := o_want o; o_last := o_last o;
     o_typed := o_typed o; o_onget := o_onget o; o_onput := o_onput o; o_cancel := o_cancel o; o_close := true |}.

Definition is_info (i : nat) (s : conn) : bool :=
  match nth_error (objs s) i with Some o => match o_kind o with Info => true | _ => false end | None => false end.

(** One step of the worker.  Messages are only handled while the connection is open. *)
Definition step (s : conn) (e : event) : conn * list output :=
  match e with
  | Create cid h => if up s then create cid h s else (s, [])
  | DestroyChan sid cid => if up s then destroy_chan sid cid s else (s, [])
  | CloseChan c => close_chan c s
  | Init Info _ _ => (s, [])
  | Init k sid ioid => if up s then init k sid ioid s else (s, [])
  | Connect i proto mask => if is_info i s then (s, []) else connect i proto mask s
  | ConnError i =>
    match nth_error (objs s) i with
    | Some o => match o_st o, o_kind o with
                | Creating, Info => (s, [])
                | Creating, _ => gpr_reply i 0 None s
                | _, _ => (s, [])
                end
    | None => (s, [])
    end
  | OnGet i => set_fn with_onget [] i s
  | OnPut i => set_fn with_onput [] i s
  | OnClose i => set_fn with_close [CloseSet i] i s
  | OnCancel i => set_fn with_cancel [] i s
  | Exec Info _ _ _ => (s, [])
  | Exec k ioid want last => if up s then exec k ioid want last s else (s, [])
  | Reply i h v => if is_info i s then (s, []) else gpr_reply i h (Some v) s
  | Fail i h => if is_info i s then (s, []) else gpr_reply i h None s
  | Cancel sid ioid => if up s then cancel sid ioid s else (s, [])
  | DestroyReq sid ioid => if up s then destroy_req sid ioid s else (s, [])
  | GetField sid ioid => if up s then get_field sid ioid s else (s, [])
  | InfoReply i ok => if is_info i s then info_reply i ok s else (s, [])
  | Bad | Drop => if up s then conn_cleanup s else (s, [])
  end.
Fixpoint run (s : conn) (tr : list event) : conn * list output :=
  match tr with
  | [] => (s, [])
  | e :: tr' => let '(s1, o1) := step s e in let '(s2, o2) := run s1 tr' in (s2, o1 ++ o2)
  end.
