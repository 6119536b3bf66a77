(** What a subscription should hand to its user. *)
From Coq Require Import List Bool Arith.
From Verif Require Import ClientMonModel.
Import ListNotations.

Section Mon.
  Variable V : Type.
  Variable assign : V -> V -> V.
  Variable g : config.
  Notation sub := (sub V). Notation entry := (entry V). Notation event := (event V). Notation out := (out V).

  (** The happenings a user is to be told about, given the state of the subscription: *)
  Definition arrives (s : sub) (e : event) : list entry :=
    if calling V s then [] else
    match e, st V s with
    | Build _ false, Unbuilt => [Exc V Failed]                     (* it could not be set up *)
    | Create _, Connecting => if mask_conn g then [] else [Exc V Connected]
    | Lost _, (Creating | Idle | Running) => if mask_discon g then [] else [Exc V Disconnect]
    | InitReply _ ok throws, Creating =>
      if negb (known V s) then [] else if negb ok then [Exc V Remote] else if throws then [Exc V Failed] else []
    | Update _ final ok data, (Idle | Running) =>
      if negb (known V s) then [] else
      (if negb ok then [Exc V Remote] else match data with Some v => [Data V v] | None => [] end) ++ (if final then [Exc V Finished] else [])
    | _, _ => []
    end.
  Fixpoint arrived (s : sub) (es : list event) : list entry :=
    match es with
    | [] => []
    | e :: es' => arrives s e ++ arrived (fst (step V assign g s e)) es'
    end.

  (** [merged a b]: [b] is [a], but that some updates are assigned into the update before them. *)
  Inductive merged : list entry -> list entry -> Prop :=
  | merged_none : merged [] []
  | merged_event a b e : merged a b -> merged (a ++ [e]) (b ++ [e])
  | merged_update a b l v : merged a (b ++ [Data V l]) -> merged (a ++ [Data V v]) (b ++ [Data V (assign l v)]).

  Definition popped (o : list out) : list entry := flat_map (fun x => match x with Popped _ e => [e] | _ => [] end) o.
  (** The user was called back since a pop() last told that the queue is empty. *)
  Definition awake (o : list out) : Prop := exists l1 l2, o = l1 ++ Callback V :: l2 /\ ~ In (PopEmpty V) l2.

  Definition is_callback (x : out) : bool := match x with Callback _ => true | _ => false end.
  Definition is_empty (x : out) : bool := match x with PopEmpty _ => true | _ => false end.
  Definition count (f : out -> bool) (o : list out) : nat := length (filter f o).
  Definition acked (o : list out) : nat := fold_right (fun x n => match x with SentAck _ k => k + n | _ => n end) 0 o.

  Definition conn_event (e : entry) : bool := match e with Exc _ Connected | Exc _ Disconnect => true | _ => false end.
  (** Connected, Disconnect, Connected, ... *)
  Fixpoint alternate (up : bool) (l : list entry) : Prop :=
    match l with
    | [] => True
    | e :: l' => e = Exc V (if up then Disconnect else Connected) /\ alternate (negb up) l'
    end.

  (** A server which keeps to the flow control window.  [served s w]: a history leading to [s], where
      the server may send [w] more updates. *)
  Definition sent_window (w : nat) (x : out) : nat :=
    match x with SentInit _ (Some q) => q | SentAck _ n => w + n | _ => w end.
  Definition takes_update (s : sub) (e : event) : bool :=
    match e, st V s with
    | Update _ false true _, (Idle | Running) => known V s && negb (calling V s)
    | _, _ => false
    end.
  Definition polite (s : sub) (w : nat) (e : event) : Prop :=
    takes_update s e = true -> 0 < w /\ (forall data, e = Update V false true data -> data <> None).
  Inductive served : sub -> nat -> Prop :=
  | served_new : served (new_sub V) 0
  | served_step s w e : served s w -> polite s w e ->
      served (fst (step V assign g s e)) (fold_left sent_window (snd (step V assign g s e)) (if takes_update s e then pred w else w)).
  (** The same without loss of the connection. *)
  Inductive served_once : sub -> nat -> Prop :=
  | once_new : served_once (new_sub V) 0
  | once_step s w e : served_once s w -> polite s w e -> e <> Lost V ->
      served_once (fst (step V assign g s e)) (fold_left sent_window (snd (step V assign g s e)) (if takes_update s e then pred w else w)).

  (** A server which answers INIT once, and sends updates only after it has accepted it, on each connection.
      [honest s asked accepted]: a history leading to [s]. *)
  Definition sent_init (o : list out) : bool := existsb (fun x => match x with SentInit _ _ => true | _ => false end) o.
  Definition allowed (asked accepted : bool) (e : event) : Prop :=
    match e with InitReply _ _ _ => asked = true | Update _ _ _ _ => accepted = true | _ => True end.
  (** [careful]: what is assumed about the user *)
  Inductive honest (careful : sub -> event -> Prop) : sub -> bool -> bool -> Prop :=
  | honest_new : honest careful (new_sub V) false false
  | honest_step s asked accepted e : honest careful s asked accepted -> allowed asked accepted e -> careful s e ->
      honest careful (fst (step V assign g s e))
        (match e with
         | Create _ => asked || sent_init (snd (step V assign g s e))
         | Lost _ => if calling V s then asked else false
         | InitReply _ _ _ => if calling V s then asked else false
         | _ => asked
         end)
        (match e with
         | Lost _ => if calling V s then accepted else false
         | InitReply _ ok _ => if calling V s then accepted else ok
         | _ => accepted
         end).
End Mon.
