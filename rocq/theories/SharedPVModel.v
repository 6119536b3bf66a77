(** Model of SharedPV (src/sharedpv.cpp).

    The values queued for subscribers are shared storage: SharedPV::post()
    queues one copy for all subscribers, and a subscription whose queue is full
    assigns to the copy it has queued last.  So there is a heap of values, and
    the queues of the subscriptions (ServerMonModel) hold addresses.

    Each step is one region under SharedPV::Impl::lock, or a call made without
    it.  Posting to the subscribers is done under the lock, in the order of
    std::set<shared_ptr>, which is that of memory addresses: the order of
    [members] is arbitrary.

    Simplifications: the type check of post() is left out (all values here are of
    the type of open()); SharedPV::fetch(), onPut and onRPC forwarding are not
    modelled; destruction of a subscription without onClose is not modelled.

    No proofs in this file. *)
From Coq Require Import List Bool Arith.
From Verif Require Import ServerMonModel.
Import ListNotations.

Section SharedPV.
  Variable V : Type.
  Variable assign : V -> V -> V.            (** [assign a b]: [a] after a.assign(b) *)
  Variable clone : V -> V.                  (** Value::clone() *)
  Variable wants : nat -> V -> bool.        (** testmask() with the request of a subscription *)

  (** A queue entry: the address of the copy.  The second component is what was
      posted, for use in statements; no step depends on it but for testmask() at
      the time of the post, when it is also what the heap has. *)
  Definition ref : Type := nat * V.
  Definition rsquash (a b : ref) : ref := a.
  Definition mreal (id : nat) (r : ref) : bool := wants id (snd r).
  Definition msub := mon ref.

  (** SharedPV::Impl, src/sharedpv.cpp:36-51.  [subs]: the subscriptions known to
      the server, by number; [members]: Impl::subscribers; [waiting]: Impl::mpending;
      [connecting]: calls of connectSub() which have released the lock
      (:79-93) but not yet called connect(), with the address of the value they
      will post; [connected]: those which have called post() but not yet emplace() (:94). *)
  Record pv := {
    current : option V; heap : list V; subs : nat -> option msub;
    members : list nat; waiting : list nat; connecting : list (nat * nat); connected : list nat
  }.
  Definition new_pv : pv :=
    {| current := None; heap := []; subs := fun _ => None; members := []; waiting := []; connecting := []; connected := [] |}.

  Inductive log := LOffer (id : nat) (v : V) | LSend (id : nat) (v : V).

  Definition set_sub (id : nat) (m : msub) (s : nat -> option msub) : nat -> option msub :=
    fun k => if k =? id then Some m else s k.
  Fixpoint set_at {A} (i : nat) (x : A) (l : list A) : list A :=
    match l, i with [], _ => [] | _ :: l', O => x :: l' | a :: l', S i' => a :: set_at i' x l' end.

  (** what a subscription sends is read from the heap when it is sent *)
  Fixpoint sends (h : list V) (id : nat) (o : list (output ref)) : list log :=
    match o with
    | [] => []
    | OUpdate _ (a, _) :: o' => match nth_error h a with Some v => LSend id v :: sends h id o' | None => sends h id o' end
    | _ :: o' => sends h id o'
    end.

  (** queue.back().assign(val), src/servermon.cpp:273, on the heap *)
  Definition merge_back (m m' : msub) (a : nat) (h : list V) : list V :=
    if nsquash ref m' =? nsquash ref m then h
    else match lastn (queue ref m) with
         | Some (_, Some (b, _)) =>
             match nth_error h b, nth_error h a with
             | Some x, Some y => set_at b (assign x y) h
             | _, _ => h
             end
         | _ => h
         end.
  (** sub->post(val), val being the copy at [a] *)
  Definition post_one (a : nat) (v : V) (h : list V) (s : nat -> option msub) (id : nat) : list V * (nat -> option msub) * list log :=
    match s id with
    | None => (h, s, [])
    | Some m =>
        match step ref (mreal id) rsquash m (EPost ref (Some (a, v)) false false) with
        | None => (h, s, [])
        | Some (m', _) => (merge_back m m' a h, set_sub id m' s, [LOffer id v])
        end
    end.
  (** the loop of SharedPV::post(), src/sharedpv.cpp:445-447 *)
  Fixpoint post_all (a : nat) (v : V) (h : list V) (s : nat -> option msub) (ids : list nat) : list V * (nat -> option msub) * list log :=
    match ids with
    | [] => (h, s, [])
    | id :: r =>
        let '(h1, s1, l1) := post_one a v h s id in
        let '(h2, s2, l2) := post_all a v h1 s1 r in
        (h2, s2, l1 ++ l2)
    end.

  Inductive pevent :=
  | POpen (v : V)                 (** open(), :349-388, up to the loop *)
  | PClose                        (** close(), :398-418 *)
  | PPost (v : V)                 (** post(), :420-448 *)
  | PNew (id : nat) (nack : nat) (pipe : bool) (qsize : option nat)  (** INIT of a subscription: onSubscribe(), :252-275 *)
  | PConnect (id : nat)           (** connect() and post() of connectSub(), :83-92 *)
  | PEnter (id pos : nat)         (** emplace() of connectSub(), :94, [pos]: where in the set *)
  | PGone (id : nat)              (** onClose of a subscription, :85-89, 266-270 *)
  | PSub (id : nat) (e : event ref).  (** any other step of a subscription *)

  Definition find_conn (id : nat) (l : list (nat * nat)) : option nat :=
    match find (fun x => fst x =? id) l with Some (_, a) => Some a | None => None end.
  Definition drop (id : nat) (l : list nat) : list nat := filter (fun k => negb (k =? id)) l.
  Definition drop_conn (id : nat) (l : list (nat * nat)) : list (nat * nat) := filter (fun x => negb (fst x =? id)) l.
  Definition pv_event (e : event ref) : bool := match e with EPost _ _ _ _ | EConnect _ => false | _ => true end.

  Definition pstep (p : pv) (e : pevent) : option (pv * list log) :=
    match e with
    | POpen v =>
        match current p with
        | Some _ => None  (* throws *)
        | None =>
            Some ({| current := Some (clone v); heap := heap p ++ [clone v]; subs := subs p; members := members p;
                     waiting := []; connecting := map (fun id => (id, length (heap p))) (waiting p) ++ connecting p; connected := connected p |}, [])
        end
    | PClose =>
        Some ({| current := None; heap := heap p; subs := subs p; members := [];
                 waiting := waiting p; connecting := connecting p; connected := connected p |}, [])
    | PPost v =>
        match current p with
        | None => None  (* throws *)
        | Some c =>
            let '(h, s, l) :=
              match members p with
              | [] => (heap p, subs p, [])
              | ids => post_all (length (heap p)) (clone v) (heap p ++ [clone v]) (subs p) ids
              end in
            Some ({| current := Some (assign c v); heap := h; subs := s; members := members p;
                     waiting := waiting p; connecting := connecting p; connected := connected p |}, l)
        end
    | PNew id nack pipe qsize =>
        match subs p id with
        | Some _ => None
        | None =>
            let s := set_sub id (create ref nack pipe qsize) (subs p) in
            match current p with
            | None =>
                Some ({| current := current p; heap := heap p; subs := s; members := members p;
                         waiting := waiting p ++ [id]; connecting := connecting p; connected := connected p |}, [])
            | Some c =>
                Some ({| current := current p; heap := heap p ++ [clone c]; subs := s; members := members p;
                         waiting := waiting p; connecting := (id, length (heap p)) :: connecting p; connected := connected p |}, [])
            end
        end
    | PConnect id =>
        match find_conn id (connecting p), subs p id with
        | Some a, Some m =>
            match nth_error (heap p) a with
            | None => None
            | Some v =>
                let m1 := match step ref (mreal id) rsquash m (EConnect ref) with Some (m1, _) => m1 | None => m end in
                let '(h, s, l) := post_one a v (heap p) (set_sub id m1 (subs p)) id in
                Some ({| current := current p; heap := h; subs := s; members := members p;
                         waiting := waiting p; connecting := drop_conn id (connecting p); connected := id :: connected p |}, l)
            end
        | _, _ => None
        end
    | PEnter id pos =>
        if existsb (Nat.eqb id) (connected p)
        then Some ({| current := current p; heap := heap p; subs := subs p;
                      members := firstn pos (members p) ++ id :: skipn pos (members p);
                      waiting := waiting p; connecting := connecting p; connected := drop id (connected p) |}, [])
        else None
    | PGone id =>
        Some ({| current := current p; heap := heap p; subs := subs p; members := drop id (members p);
                 waiting := drop id (waiting p); connecting := connecting p; connected := connected p |}, [])
    | PSub id e =>
        if pv_event e then
          match subs p id with
          | None => None
          | Some m =>
              match step ref (mreal id) rsquash m e with
              | None => None
              | Some (m', o) =>
                  Some ({| current := current p; heap := heap p; subs := set_sub id m' (subs p); members := members p;
                           waiting := waiting p; connecting := connecting p; connected := connected p |}, sends (heap p) id o)
              end
          end
        else None
    end.
  Fixpoint prun (p : pv) (es : list pevent) : option (pv * list log) :=
    match es with
    | [] => Some (p, [])
    | e :: es' =>
        match pstep p e with
        | None => None
        | Some (p1, l) =>
            match prun p1 es' with
            | None => None
            | Some (p2, l') => Some (p2, l ++ l')
            end
        end
    end.
End SharedPV.

(** ** Channels: onFirstConnect and onLastDisconnect

    attach() and the onClose handler of a channel decide under the lock and call
    the user's function after releasing it (src/sharedpv.cpp:277-312), on the
    worker of the channel's server.  [busy w]: the call worker [w] is about to
    make.  A SharedPV may be added to several servers. *)
Inductive notice := First | Last.
Record chans := { attached : list nat; open_chans : list (nat * nat) (* channel, worker *); seen : list nat; busy : nat -> option notice }.
Inductive cevent :=
| CAttach (c w : nat)       (** :301-304, channel [c] on worker [w] *)
| CClosed (c w : nat)       (** onClose of the channel, :282-289 *)
| CCall (w : nat)           (** :290-296, 306-312: the call *)
| CClose.                   (** SharedPV::close(), :404-412: forget all channels; their onClose follow *)
Definition new_chans : chans := {| attached := []; open_chans := []; seen := []; busy := fun _ => None |}.
Definition set_busy (w : nat) (x : option notice) (f : nat -> option notice) : nat -> option notice :=
  fun k => if k =? w then x else f k.
(** one step, of src/sharedpv.cpp at the lines given with each event; None: the event can not happen now *)
Definition cstep (s : chans) (e : cevent) : option (chans * list notice) :=
  match e with
  | CAttach c w =>
      if existsb (Nat.eqb c) (seen s) then None
      else match busy s w with
           | Some _ => None
           | None =>
               Some ({| attached := c :: attached s; open_chans := (c, w) :: open_chans s; seen := c :: seen s;
                        busy := set_busy w (match attached s with [] => Some First | _ => None end) (busy s) |}, [])
           end
  | CClosed c w =>
      if existsb (fun x => (fst x =? c) && (snd x =? w)) (open_chans s) then
        match busy s w with
        | Some _ => None
        | None =>
            let rest := filter (fun k => negb (k =? c)) (attached s) in
            Some ({| attached := rest; open_chans := filter (fun x => negb (fst x =? c)) (open_chans s); seen := seen s;
                     busy := set_busy w (match rest with [] => Some Last | _ => None end) (busy s) |}, [])
        end
      else None
  | CCall w =>
      match busy s w with
      | None => None
      | Some n => Some ({| attached := attached s; open_chans := open_chans s; seen := seen s; busy := set_busy w None (busy s) |}, [n])
      end
  | CClose => Some ({| attached := []; open_chans := open_chans s; seen := seen s; busy := busy s |}, [])
  end.
Fixpoint crun (s : chans) (es : list cevent) : option (chans * list notice) :=
  match es with
  | [] => Some (s, [])
  | e :: es' =>
      match cstep s e with
      | None => None
      | Some (s1, o) => match crun s1 es' with None => None | Some (s2, o') => Some (s2, o ++ o') end
      end
  end.
