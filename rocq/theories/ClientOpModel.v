(** Model of client operations: GPROp (src/clientget.cpp:111-388) for GET, PUT and RPC, with
    Connection::handle_GPR() (:392-564) and gpr_setup() (:570-606); InfoOp
    (src/clientintrospect.cpp:20-104) with Connection::handle_GET_FIELD() (:108-173).

    All of it runs on the worker thread of the context: cancel() and the release of
    the handle by a user thread run there as well (evbase::tryCall(), src/evhelper.cpp:318-347), a call from
    a callback at once.  An event of the model is what the worker does at a time.

    Values are a parameter, with Value::assign().  Simplifications: decoding is in ValueModel.v (a
    reply was decoded already); a reply with the wrong command for its IOID
    is a malformed message (src/clientget.cpp:466-468) and left out; the statistics are left out;
    what the result callback throws is only logged (:158-172).

    No proofs in this file. *)
From Coq Require Import List Bool Arith.
Import ListNotations.

Section Op.
  Variable V : Type.
  Variable assign : V -> V -> V.

  Inductive kind := Get | Put | RPC.
  (** const after exec(), src/clientget.cpp:608-668: [auto]: autoExec; [get_first]: getOput *)
  Record config := { op_kind : kind; auto : bool; get_first : bool }.

  (** Result, src/pvxs/client.h:  a value, RemoteError, Disconnect or another exception *)
  Inductive result := Ok (v : option V) | Remote | Disconnect | Failed.
  (** state_t, src/clientget.cpp:125-133; [BuildPut] is never left standing by sendReply().
      [Unbuilt]: before the action of gpr_setup() ran; [Dead]: it failed, `chan` is null. *)
  Inductive state := Unbuilt | Dead | Connecting | Creating | Idle | GetOPut | Exec | Done.

  (** GPROp.  [who]: the result callback in `done`: 0 was given to exec(), [S n] to the [n]-th
      reExec, None after cancel(); [build]: `builder`, given the empty Value (None) or one, None when it throws, and taken not
      to return the empty Value; [known]: in opByIOID of the
      connection; [attached]: `chan->conn` is not null. *)
  Record gpr := { st : state; who : option nat; build : option V -> option V; arg : option V; known : bool; attached : bool }.
  Definition new_gpr (b : option V -> option V) (a : option V) : gpr := {| st := Unbuilt; who := Some 0; build := b; arg := a; known := false; attached := false |}.

  Inductive out :=
  | SentInit
  | SentGet                          (* request for the present value before a PUT *)
  | SentExec (v : option V)          (* request for execution, with the value to PUT or argument of the RPC *)
  | SentDestroy
  | Called (n : nat) (r : result)    (* result callback [n] is invoked *)
  | Dropped (n : nat)                (* result callback [n] is thrown away *)
  | OnInit                           (* the onInit callback is invoked *)
  | HangUp                           (* the client ends the connection *)
  | NullDeref.                       (* a null pointer is used *)

  Inductive event :=
  | Build (ok : bool)                (* the action dispatched by gpr_setup() *)
  | Create                           (* createOp(): the channel is connected; an operation cancelled before is
                                        entered in opByIOID as well, under an IOID the server is not told *)
  | Detach                           (* Channel::disconnect() takes `conn`; callbacks of the user follow before [Lost] *)
  | Lost                             (* disconnected() *)
  | InitReply (data : option V) (ok throws : bool)     (* [throws]: onInit does *)
  | Reply (get ok : bool) (data : option V)
  | Cancel
  | Drop                             (* the last reference to the handle *)
  | ReExec (put : bool) (v : V) (n : nat).             (* reExecGet(), reExecPut(), with callback [S n] *)

  Variable g : config.

  Definition set_st (x : state) (s : gpr) : gpr := {| st := x; who := who s; build := build s; arg := arg s; known := known s; attached := attached s |}.
  Definition set_known (k : bool) (s : gpr) : gpr := {| st := st s; who := who s; build := build s; arg := arg s; known := k; attached := attached s |}.
  Definition set_who (w : option nat) (s : gpr) : gpr := {| st := st s; who := w; build := build s; arg := arg s; known := known s; attached := attached s |}.
  Definition set_build (b : option V -> option V) (s : gpr) : gpr := {| st := st s; who := who s; build := b; arg := arg s; known := known s; attached := attached s |}.
  Definition set_arg (a : option V) (s : gpr) : gpr := {| st := st s; who := who s; build := build s; arg := a; known := known s; attached := attached s |}.
  Definition set_attached (a : bool) (s : gpr) : gpr := {| st := st s; who := who s; build := build s; arg := arg s; known := known s; attached := a |}.

  (** notify(), src/clientget.cpp:158-172: `done` stays as it is *)
  Definition notify (r : result) (s : gpr) : list out := match who s with Some n => [Called n r] | None => [] end.
  (** the end of sendReply(), :317-332: CMD_DESTROY_REQUEST is sent, the operation forgotten *)
  Definition ended (r : result) (s : gpr) : gpr * list out := (set_known false (set_st Done s), SentDestroy :: notify r s).
  (** sendReply() in state Exec, src/clientget.cpp:299-309, with what BuildPut gave *)
  Definition send_exec (v : option V) (s : gpr) : gpr * list out := (set_st Exec s, [SentExec v]).
  (** sendReply() in state BuildPut, :275-287 *)
  Definition build_put (s : gpr) : gpr * list out :=
    match build s (arg s) with Some v => send_exec (Some v) s | None => ended Failed s end.
  (** _reExec(), src/clientget.cpp:255-268 *)
  Definition re_exec (put : bool) (s : gpr) : gpr * list out :=
    match op_kind g with
    | Put => if put then build_put s else (set_st GetOPut s, [SentGet])
    | Get => send_exec None s
    | RPC => send_exec (arg s) s
    end.
  (** _reExecImpl(), :206-235 *)
  Definition re_exec_impl (put : bool) (v : V) (n : nat) (s : gpr) : gpr * list out :=
    if auto g then (s, [Called (S n) Failed])
    else match st s with
    | Idle =>
      let s1 := match op_kind g with RPC => set_arg (Some v) s | Put => if put then set_build (fun _ => Some v) s else s | Get => s end in
      re_exec put (set_who (Some (S n)) s1)
    | _ => (s, [Dropped (S n)])
    end.
  (** _cancel(), :188-204 *)
  Definition cancel_ (s : gpr) : gpr * list out :=
    match st s with
    | Idle | GetOPut | Exec => if attached s then (set_known false (set_st Done s), [SentDestroy]) else (s, [NullDeref])
    | Creating => if attached s then (set_known false (set_st Done s), []) else (s, [NullDeref])
    | _ => (set_st Done s, [])
    end.
  (** cancel(), :174-186 *)
  Definition cancel (s : gpr) : gpr * list out := let '(s1, o) := cancel_ s in (set_who None s1, o).
  (** the deleter of the handle, :577-590 *)
  Definition drop (s : gpr) : gpr * list out := match st s with Unbuilt | Dead => (s, []) | _ => cancel_ s end.

  (** createOp(), :335-360; Channel::createOperations() enters it in opByIOID first *)
  Definition create (s : gpr) : gpr * list out :=
    match st s with Connecting => (set_attached true (set_known true (set_st Creating s)), [SentInit]) | _ => (s, []) end.
  (** disconnected(), :362-386; the channel forgot it before *)
  Definition lost (s : gpr) : gpr * list out :=
    let s0 := set_attached false (set_known false s) in
    match st s with
    | Unbuilt | Dead | Connecting | Done => (s0, [])
    | Exec => if negb (match op_kind g with Get => true | _ => false end) && negb (auto g)
              then (set_st Done s0, notify Disconnect s0) else (set_st Connecting s0, [])
    | Creating | Idle | GetOPut => (set_st Connecting s0, [])
    end.

  (** handle_GPR() with init set *)
  Definition init_reply (data : option V) (ok throws : bool) (s : gpr) : gpr * list out :=
    if negb (known s) then (s, [])                                                  (* :429-440 *)
    else match st s with
    | Creating =>
      if negb ok then ended Remote s                                                (* :493-495, :558 *)
      else
        let s1 := set_st Idle s in
        let s2 := match op_kind g with RPC => s1 | _ => set_arg data s1 end in      (* :499-501 *)
        if throws then (set_st Done s2, OnInit :: notify Failed s2)                 (* :503-512: nothing is sent, it is not forgotten *)
        else if auto g then let '(s3, o) := re_exec (negb (get_first g)) s2 in (s3, OnInit :: o)   (* :514-517 *)
        else (s2, [OnInit])
    | _ => (s, [HangUp])                                                            (* :480-489 *)
    end.
  (** handle_GPR() otherwise *)
  Definition reply (get ok : bool) (data : option V) (s : gpr) : gpr * list out :=
    if negb (known s) then (s, [])
    else match st s, get with
    | GetOPut, true =>
      if negb ok then if auto g then ended Remote s else (set_st Idle s, [HangUp])  (* :493-495; sendReply() throws at :315, caught at src/conn.cpp:276-281 *)
      else
        let s1 := match arg s, data with Some a, Some d => set_arg (Some (assign a d)) s | _, _ => s end in     (* :521; of an empty Value: not modelled *)
        if auto g then build_put s1                                                 (* :523-525 *)
        else (set_st Idle s1, notify (Ok data) s1)                                  (* :527-533 *)
    | Exec, false =>
      if negb ok then if auto g then ended Remote s else (set_st Idle s, [HangUp])
      else if auto g then ended (Ok data) s                                         (* :544 *)
      else (set_st Idle s, notify (Ok data) s)                                      (* :539-543 *)
    | _, _ => (s, [HangUp])
    end.

  (** the action of gpr_setup(), src/clientget.cpp:592-603 *)
  Definition set_up (ok : bool) (s : gpr) : gpr * list out :=
    match st s with
    | Unbuilt => if ok then (set_st Connecting s, []) else (set_st Dead s, notify Failed s)
    | _ => (s, [])
    end.

  Definition step (s : gpr) (e : event) : gpr * list out :=
    match e with
    | Build ok => set_up ok s
    | Create => create s
    | Detach => (set_attached false s, [])
    | Lost => lost s
    | InitReply d ok t => init_reply d ok t s
    | Reply gt ok d => reply gt ok d s
    | Cancel => cancel s
    | Drop => drop s
    | ReExec p v n => re_exec_impl p v n s
    end.
  Fixpoint run (s : gpr) (es : list event) : gpr * list out :=
    match es with
    | [] => (s, [])
    | e :: es' => let '(s1, o1) := step s e in let '(s2, o2) := run s1 es' in (s2, o1 ++ o2)
    end.
End Op.

(** ** InfoOp *)
Section Info.
  (** state_t, src/clientintrospect.cpp:25-29 *)
  Inductive istate := IUnbuilt | IDead | IConnecting | IWaiting | IDone.
  Record info := { i_st : istate; i_done : bool; i_known : bool; i_attached : bool }.
  Definition new_info : info := {| i_st := IUnbuilt; i_done := true; i_known := false; i_attached := false |}.
  Inductive iout := ISent | ISentDestroy | ICalled (ok : bool) | IFailed | INullDeref.
  Inductive ievent := IBuild (ok : bool) | ICreate | IDetach | ILost | IReply (ok : bool) | ICancel | IDrop.

  (** _cancel(), src/clientintrospect.cpp:56-71 *)
  Definition i_cancel_ (s : info) : info * list iout :=
    match i_st s with
    | IWaiting => if i_attached s then ({| i_st := IDone; i_done := i_done s; i_known := false; i_attached := i_attached s |}, [ISentDestroy]) else (s, [INullDeref])
    | _ => ({| i_st := IDone; i_done := i_done s; i_known := i_known s; i_attached := i_attached s |}, [])
    end.
  (** IBuild: GetBuilder::_exec_info(), :217-236; ICreate: createOp(), :77-99; ILost: disconnected(), :101-110;
      IReply: handle_GET_FIELD(), :117-178, which moves `done` away; ICancel: cancel(), :45-54; IDrop: the deleter, :202-215 *)
  Definition istep (s : info) (e : ievent) : info * list iout :=
    match e with
    | IBuild ok => match i_st s with
                   | IUnbuilt => if ok then ({| i_st := IConnecting; i_done := i_done s; i_known := i_known s; i_attached := i_attached s |}, [])
                                 else ({| i_st := IDead; i_done := i_done s; i_known := i_known s; i_attached := i_attached s |}, if i_done s then [IFailed] else [])
                   | _ => (s, []) end
    | ICreate => match i_st s with
                 | IConnecting => ({| i_st := IWaiting; i_done := i_done s; i_known := true; i_attached := true |}, [ISent])
                 | _ => (s, []) end
    | IDetach => ({| i_st := i_st s; i_done := i_done s; i_known := i_known s; i_attached := false |}, [])
    | ILost => ({| i_st := match i_st s with IWaiting => IConnecting | x => x end; i_done := i_done s; i_known := false; i_attached := false |}, [])
    | IReply ok => if negb (i_known s) then (s, [])
                   else match i_st s with
                   | IWaiting => ({| i_st := IDone; i_done := false; i_known := false; i_attached := i_attached s |}, if i_done s then [ICalled ok] else [])
                   | x => ({| i_st := x; i_done := i_done s; i_known := false; i_attached := i_attached s |}, []) end
    | ICancel => let '(s1, o) := i_cancel_ s in ({| i_st := i_st s1; i_done := false; i_known := i_known s1; i_attached := i_attached s1 |}, o)
    | IDrop => match i_st s with IUnbuilt | IDead => (s, []) | _ => i_cancel_ s end
    end.
  Fixpoint irun (s : info) (es : list ievent) : info * list iout :=
    match es with
    | [] => (s, [])
    | e :: es' => let '(s1, o1) := istep s e in let '(s2, o2) := irun s1 es' in (s2, o1 ++ o2)
    end.
End Info.
