(** What an application should see of a client operation. *)
From Coq Require Import List Bool Arith.
From Verif Require Import ClientOpModel.
Import ListNotations.

Section Op.
  Variable V : Type.
  Variable assign : V -> V -> V.
  Variable g : config.
  Notation gpr := (gpr V). Notation event := (event V). Notation out := (out V).

  Definition count {A} (f : A -> bool) (l : list A) : nat := length (filter f l).
  Definition calls (n : nat) (x : out) : bool := match x with Called _ k _ => k =? n | _ => false end.
  Definition is_call (x : out) : bool := match x with Called _ _ _ => true | _ => false end.
  Definition executes (x : out) : bool := match x with SentExec _ _ => true | _ => false end.
  Definition is_lost (e : event) : bool := match e with Lost _ => true | _ => false end.
  Definition is_reexec (e : event) : bool := match e with ReExec _ _ _ _ => true | _ => false end.
  Definition is_put (e : event) : bool := match e with ReExec _ true _ _ => true | _ => false end.
  Definition gives_up (e : event) : bool := match e with Cancel _ | Drop _ => true | _ => false end.

  (** how often the connection is lost while the reply to an execution is awaited *)
  Fixpoint lost_executing (s : gpr) (es : list event) : nat :=
    match es with
    | [] => 0
    | e :: es' => (match e, st V s with Lost _, Exec => 1 | _, _ => 0 end) + lost_executing (fst (step V assign g s e)) es'
    end.

  (** cancel() is not called, and the handle not dropped, from a callback which runs while the channel is being disconnected *)
  Fixpoint orderly (disconnecting : bool) (es : list event) : Prop :=
    match es with
    | [] => True
    | Detach _ :: es' => orderly true es'
    | Lost _ :: es' => orderly false es'
    | Cancel _ :: es' | Drop _ :: es' => disconnecting = false /\ orderly disconnecting es'
    | _ :: es' => orderly disconnecting es'
    end.

  (** What the server owes the client: the answer to a request. *)
  Inductive request := ToInit | ToGet | ToExec.
  Definition asks (owed : option request) (x : out) : option request :=
    match x with SentInit _ => Some ToInit | SentGet _ => Some ToGet | SentExec _ _ => Some ToExec | _ => owed end.
  (** A server which answers each request once, with an answer to this request. *)
  Definition allowed (owed : option request) (e : event) : Prop :=
    match e with
    | InitReply _ _ _ _ => owed = Some ToInit
    | Reply _ get _ _ => owed = Some (if get then ToGet else ToExec)
    | _ => True
    end.
  Definition owes (owed : option request) (e : event) (o : list out) : option request :=
    fold_left asks o (match e with InitReply _ _ _ _ | Reply _ _ _ _ | Lost _ => None | _ => owed end).
  (** [honest careful b a s owed]: a history with such a server leads to [s]; [careful] is assumed about the events. *)
  Inductive honest (careful : gpr -> event -> Prop) (b : option V -> option V) (a : option V) : gpr -> option request -> Prop :=
  | honest_new : honest careful b a (new_gpr V b a) None
  | honest_step s owed e : honest careful b a s owed -> allowed owed e -> careful s e ->
      honest careful b a (fst (step V assign g s e)) (owes owed e (snd (step V assign g s e))).
End Op.

Section Info.
  Definition i_calls (x : iout) : bool := match x with ICalled _ | IFailed => true | _ => false end.
  Definition i_gives_up (e : ievent) : bool := match e with ICancel | IDrop => true | _ => false end.
End Info.
