(** What a user sees of the channels of a client. *)
From Coq Require Import ZArith List Bool Arith.
From Verif Require Import Base ChanModel.
Import ListNotations.

(** *** The life of an operation *)
Inductive life := Waiting | Running | Ended.
Definition live (o : nat) (s : option life) (e : out) : option life :=
  let me o' := Nat.eqb o o' in
  match e, s with
  | OStart o' _, _ => if me o' then match s with Some Waiting => Some Running | _ => None end else s
  | OLost o', _ => if me o' then match s with Some Running => Some Waiting | _ => None end else s
  | OFail o', _ | OEnd o', _ => if me o' then match s with Some Running => Some Ended | _ => None end else s
  | _, _ => s
  end.
(** None: what was told to the operation is out of order. *)
Definition life_of (o : nat) (l : list out) : option life := fold_left (live o) l (Some Waiting).

(** *** What a Connect handle tells: up and down in turn *)
Definition turn (w : nat) (s : option (option bool)) (e : out) : option (option bool) :=
  let go (b : bool) := match s with
                       | Some (Some b') => if eqb b b' then None else Some (Some b)
                       | Some None => Some (Some b)
                       | None => None
                       end in
  match e with
  | OUp w' => if Nat.eqb w w' then go true else s
  | ODown w' => if Nat.eqb w w' then go false else s
  | _ => s
  end.
Definition told_to (w : nat) (l : list out) : option (option bool) := fold_left (turn w) l (Some None).

(** *** What is taken for granted about servers and the network *)

(** A server does not give to a new channel the number of another one which it has
    not closed *)
Definition honest (x : ctx) (e : event) : Prop :=
  match e with
  | ECreated n i sid true => forall k, x_conns x n = Some k -> ~ In sid (map fst (n_bysid k))
  | _ => True
  end.
Fixpoint honest_run (x : ctx) (es : list event) : Prop :=
  match es with [] => True | e :: es' => honest x e /\ forall y, step x e = Some y -> honest_run y es' end.
(** Attempts to connect do not fail at once; they may fail later. *)
Definition no_failure (e : event) : Prop :=
  match e with
  | EExec _ (Some _) ok | EWatch _ (Some _) ok | ETick _ ok => ok = true
  | _ => True
  end.
(** A history of a client with name servers [ns] leads to [x]. *)
Definition reached (ns : list Z) (es : list event) (x : ctx) : Prop := honest_run (init ns) es /\ run (init ns) es = Some x.

(** *** Operations and handles *)

(** Operation [o], not yet released by the application, is of a channel to the PV [name]
    and maybe a given server; the channel is at [s]. *)
Definition op_on (x : ctx) (o : nat) (name : str) (server : option Z) (s : cstate) : Prop :=
  exists i c, x_chans x i = Some c /\ In o (c_refs c) /\ c_name c = name /\ c_server c = server /\ c_state c = s.
Definition handle_on (x : ctx) (w : nat) (name : str) (server : option Z) (s : cstate) : Prop :=
  exists i c, x_chans x i = Some c /\ In w (map fst (c_watch c)) /\ c_name c = name /\ c_server c = server /\ c_state c = s.
(** Both are of one channel. *)
Definition share (x : ctx) (o p : nat) : Prop := exists i c, x_chans x i = Some c /\ In o (c_refs c) /\ In p (c_refs c).
(** What the client does about a channel next: the search goes on; or the connection
    to the server is being made, or will be when a timer fires; or the server was asked for
    the channel; or it is connected. *)
Definition attended (x : ctx) (i : nat) (c : channel) : Prop :=
  let on (p : conn -> Prop) := exists n k, c_conn c = Some n /\ x_conns x n = Some k /\ p k in
  match c_state c with
  | Searching => In i (x_search x)
  | Connecting => on (fun k => In i (n_pending k) /\ n_ready k = false /\ (n_bev k = true \/ n_state k = Holdoff /\ n_timer k = true))
  | Creating => on (fun k => In i (n_creating k) /\ n_bev k = true)
  | Active => on (fun k => In (c_sid c, i) (n_bysid k) /\ n_bev k = true)
  end.
(** The application releases an operation or handle. *)
Definition drops (e : event) (o : nat) : Prop := match e with EDrop _ o' => o = o' | _ => False end.
Definition releases (e : event) (w : nat) : Prop := match e with EUnwatch _ w' => w = w' | _ => False end.
(** Channels which an event disconnects: those of a connection which ends; the one which a
    server destroys; those which the application disconnects by name; all by close(). *)
Definition hits (x : ctx) (e : event) (i : nat) : Prop :=
  exists c, x_chans x i = Some c /\
  match e with
  | ELost n _ _ => c_conn c = Some n
  | EDestroyed n sid _ => c_conn c = Some n /\ c_sid c = sid
  | EClean name Disconnect _ => (name = [] \/ c_name c = name) /\ In ((c_name c, c_server c), i) (x_names x)
  | EClose _ => True
  | _ => False
  end.
(** Events of servers, of the network and of timers which help a channel *)
Definition helps (e : event) : Prop :=
  match e with EFound _ _ ok | ETick _ ok | ECreated _ _ _ ok => ok = true | EUp _ | EValidated _ => True | _ => False end.
(** Nothing is sent, no connection is made, and nothing new starts. *)
Definition silent (e : out) : Prop :=
  match e with OOpen _ _ | OEcho _ | OCreate _ _ _ | ODestroy _ _ _ | OUp _ | OStart _ _ => False | ODown _ | OLost _ | OFail _ | OEnd _ => True end.
(** Whether an operation which an event disconnects is tried again *)
Definition retries (e : event) (o : nat) : option bool :=
  match e with ELost _ _ again | EDestroyed _ _ again | EClean _ Disconnect again | EClose again => Some (again o) | _ => None end.
(** Channels in use leave the cache: by request, or by close(). *)
Definition forgets (e : event) : Prop :=
  match e with EClean _ Drop _ | EClean _ Disconnect _ | EClose _ => True | _ => False end.
