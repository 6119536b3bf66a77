(** Model of the sources of a server: Server::addSource(), removeSource(), getSource() and
    listSource() (src/server.cpp:80-149), and of how ServerConn::handle_CREATE_CHANNEL() asks them
    (src/serverchan.cpp:283-334).

    A source is a number; what it does with a request is a parameter.  Simplification: sourcesLock is
    held throughout each call, so each is one step.

    No proofs in this file. *)
From Coq Require Import ZArith List Bool.
From Verif Require Import Base ConfigModel.
Import ListNotations.
Local Open Scope Z_scope.

(** std::pair<int, std::string>, ordered by std::less: the key of Server::Pvt::sources,
    src/serverconn.h (Server::Pvt) *)
Definition key : Type := Z * str.
Definition key_eqb (a b : key) : bool := (fst a =? fst b) && str_eqb (snd a) (snd b).
Definition key_ltb (a b : key) : bool := (fst a <? fst b) || ((fst a =? fst b) && negb (str_leb (snd b) (snd a))).

(** std::map of sources, beaconChange (16 bits on the wire) *)
Record srv := { sources : list (key * nat); change : Z }.
Definition new_srv : srv := {| sources := []; change := 0 |}.

Fixpoint lookup (k : key) (l : list (key * nat)) : option nat :=
  match l with
  | (k', s) :: l' => if key_eqb k' k then Some s else lookup k l'
  | [] => None
  end.
Fixpoint insert (k : key) (s : nat) (l : list (key * nat)) : list (key * nat) :=
  match l with
  | (k', s') :: l' => if key_ltb k k' then (k, s) :: l else (k', s') :: insert k s l'
  | [] => [(k, s)]
  end.
Fixpoint erase (k : key) (l : list (key * nat)) : list (key * nat) :=
  match l with
  | (k', s') :: l' => if key_eqb k' k then l' else (k', s') :: erase k l'
  | [] => []
  end.

Inductive result := RDone | RThrow | RSource (s : option nat) | RList (l : list (str * Z)).
(** Server::addSource(), src/server.cpp:80-99.  [src = None]: an empty shared_ptr *)
Definition add_source (g : srv) (name : str) (src : option nat) (order : Z) : srv * result :=
  match src with
  | None => (g, RThrow)
  | Some s =>
    match lookup (order, name) (sources g) with
    | Some _ => (g, RThrow)
    | None => ({| sources := insert (order, name) s (sources g); change := change g + 1 |}, RDone)
    end
  end.
(** Server::removeSource(), src/server.cpp:101-117 *)
Definition remove_source (g : srv) (name : str) (order : Z) : srv * result :=
  ({| sources := erase (order, name) (sources g); change := change g + 1 |}, RSource (lookup (order, name) (sources g))).
(** Server::getSource(), src/server.cpp:119-133 *)
Definition get_source (g : srv) (name : str) (order : Z) : srv * result :=
  (g, RSource (lookup (order, name) (sources g))).
(** Server::listSource(), src/server.cpp:135-149 *)
Definition list_source (g : srv) : srv * result :=
  (g, RList (map (fun x => (snd (fst x), fst (fst x))) (sources g))).

Inductive call :=
| Add (name : str) (src : option nat) (order : Z)
| Remove (name : str) (order : Z)
| Get (name : str) (order : Z)
| Listing.
Definition step (g : srv) (c : call) : srv * result :=
  match c with
  | Add n s o => add_source g n s o
  | Remove n o => remove_source g n o
  | Get n o => get_source g n o
  | Listing => list_source g
  end.
Definition run (cs : list call) : srv := fold_left (fun g c => fst (step g c)) cs new_srv.

(** ** Creating a channel *)
(** What a source does with the ChannelControl it is given, src/serverchan.cpp:62-157: look at it (its
    name), set a handler (onOp(), onRPC(), onSubscribe(), onClose()), close() it, or move it away, to
    keep it or drop it *)
Inductive act := Look | Handler | Close | Take.
(** Source::onCreate() for this channel: acts in order, then returns or throws *)
Record behaviour := { acts : list act; throws : bool }.
Definition act_eqb (a b : act) : bool :=
  match a, b with Look, Look | Handler, Handler | Close, Close | Take, Take => true | _, _ => false end.
Definition does (a : act) (b : behaviour) : bool := existsb (act_eqb a) (acts b).

(** the channel, and the pointer [op], during the loop.  [from]: the sources which set a handler *)
Record chan := { closed : bool; from : list nat; op : bool }.
Definition new_chan : chan := {| closed := false; from := []; op := true |}.
(** [Crash]: a source uses a null ChannelControl *)
Inductive outcome := Crash | Refused | Created (by_ : nat) (handlers : list nat).
Definition touch (c : chan) (s : nat) (b : behaviour) : chan :=
  {| closed := closed c || does Close b;
     from := if does Handler b then from c ++ [s] else from c;
     op := op c && negb (does Take b) |}.
(** the loop over the sources, src/serverchan.cpp:286-317, and the decision, :319-331; also the sources
    asked, in order *)
Fixpoint create (behave : nat -> behaviour) (c : chan) (l : list (key * nat)) : outcome * list nat :=
  match l with
  | [] => (Refused, [])
  | (_, s) :: l' =>
    let b := behave s in
    if negb (op c) && negb (match acts b with [] => true | _ => false end) then (Crash, [s])
    else
      let c' := touch c s b in
      if throws b then let '(o, asked) := create behave c' l' in (o, s :: asked)
      else if closed c' then (Refused, [s])
      else match from c' with
           | _ :: _ => (Created s (from c'), [s])
           | [] => if negb (op c') then (Refused, [s])
                   else let '(o, asked) := create behave c' l' in (o, s :: asked)
           end
  end.
Definition create_channel (behave : nat -> behaviour) (g : srv) : outcome * list nat := create behave new_chan (sources g).
