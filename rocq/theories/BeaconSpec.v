(** What a user sees of servers coming and going, in terms of a history of what happened ([event]) and
    what the client did ([out]); the newest entry of a history comes first. *)
From Coq Require Import ZArith List Bool.
From Verif Require Import Base WireModel UdpModel BeaconModel.
Import ListNotations.
Local Open Scope Z_scope.

Definition history : Type := list (event * list out).

(** [h] is a history of a client which ends in the state [c] *)
Inductive ran : history -> ctx -> Prop :=
| ran_new : ran [] new_ctx
| ran_step : forall h c e o c', ran h c -> step c e = (o, c') -> ran ((e, o) :: h) c'.

(** the announcements among what was done *)
Fixpoint told (o : list out) : list discovered :=
  match o with
  | [] => []
  | Told _ d :: l => d :: told l
  | Hurry :: l => told l
  end.
(** about one server (an endpoint and a protocol): came online as, or was lost as, a version and a GUID *)
Definition ident : Type := Z * list Z.
Definition about (k : key) (d : discovered) : Prop := d_server d = fst k /\ d_proto d = snd k.
Definition endpoint_dec : forall a b : endpoint, {a = b} + {a <> b}.
Proof. repeat decide equality. Defined.
Definition about_dec k d : {about k d} + {~ about k d}.
Proof.
  unfold about. destruct (endpoint_dec (d_server d) (fst k)); [|right; intros [? ?]; contradiction].
  destruct (list_eq_dec Z.eq_dec (d_proto d) (snd k)); [left; auto|right; intros [? ?]; contradiction].
Defined.
Fixpoint news (k : key) (l : list discovered) : list (bool * ident) :=
  match l with
  | [] => []
  | d :: l' => if about_dec k d then (d_online d, (d_version d, d_guid d)) :: news k l' else news k l'
  end.
(** all of the announcements about a server, oldest first *)
Fixpoint all_news (k : key) (h : history) : list (bool * ident) :=
  match h with
  | [] => []
  | (_, o) :: h' => all_news k h' ++ news k (told o)
  end.

(** Announcements of a server make sense: it comes online, is lost as what it came online as, comes
    online ...  [alternate before l after]: so for [l], given what it was online as before *)
Inductive alternate : option ident -> list (bool * ident) -> option ident -> Prop :=
| alt_nil : forall s, alternate s [] s
| alt_online : forall x l s, alternate (Some x) l s -> alternate None ((true, x) :: l) s
| alt_lost : forall x l s, alternate None l s -> alternate (Some x) ((false, x) :: l) s.

(** last known as *)
Definition known (k : key) (h : history) : option ident :=
  match rev (all_news k h) with
  | (true, x) :: _ => Some x
  | _ => None
  end.

Definition key_of (b : beacon) : key := ((b_server b, b_port b), b_proto b).
Definition ident_of (b : beacon) : ident := (b_version b, b_guid b).
Definition key_dec : forall a b : key, {a = b} + {a <> b}.
Proof. repeat decide equality. Defined.
(** when a server was last heard of *)
Fixpoint last_heard (k : key) (h : history) : option Z :=
  match h with
  | [] => None
  | (Rx now _ b, _) :: h' => if key_dec (key_of b) k then Some now else last_heard k h'
  | _ :: h' => last_heard k h'
  end.

(** discover() operations in progress *)
Fixpoint active (op : Z) (h : history) : Prop :=
  match h with
  | [] => False
  | (Start op', _) :: h' => op' = op \/ active op h'
  | (Stop op', _) :: h' => op' <> op /\ active op h'
  | _ :: h' => active op h'
  end.

(** seconds *)
Definition s (n : Z) : Z := n * 1000000000.

(** clock of an event, if it reads it *)
Definition clock (e : event) : option Z :=
  match e with Rx t _ _ | Clean t | HurryUp t => Some t | _ => None end.
(** the last time that searching was hurried, and the number of expirations of the search timer since *)
Fixpoint last_hurry (h : history) : option (Z * nat) :=
  match h with
  | [] => None
  | (e, o) :: h' =>
    match clock e, in_dec (fun a b : out => ltac:(repeat decide equality)) Hurry o with
    | Some t, left _ => Some (t, O)
    | _, _ =>
      match last_hurry h' with
      | Some (t, n) => Some (t, match e with Tick => S n | _ => n end)
      | None => None
      end
    end
  end.
