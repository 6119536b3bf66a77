(** Model of StaticSource and of the channels of its PVs, src/sharedpv.cpp:148-314, :349-418, :471-621.

    Each event is one region under StaticSource::Impl::lock, or one call of a SharedPV made without it.  So other threads may come
    between the lookup of onCreate() and attach(), and between the erasure of remove() and close().

    Simplifications.  PVs, names and channels are numbers.  SharedPV::close() takes all channels in one step, and then has the worker
    of the server close each: here this is one step.  The order of names in a list is not modelled.  close() of a source
    holds the lock for reading while it closes PVs one after the other; here these steps come in any order, also with
    changes between them.  What that lock may lead to is in StaticLockModel.

    No proofs in this file. *)
From Coq Require Import List Bool Arith.
Import ListNotations.

(** [pvs]: Impl::pvs; [cache]: Impl::list, :476; [opened]: PVs with a value; [attached]: channel, name and PV of the channels in
    SharedPV::Impl::channels; [creating]: calls of onCreate() which have found their PV, :500; [closing]: calls of remove() or close()
    which are going to close a PV, :600 and :561-563; [closed]: channels closed by the server. *)
Record st := {
  pvs : list (nat * nat); cache : option (list nat); opened : list nat;
  attached : list (nat * (nat * nat)); creating : list (nat * (nat * nat)); closing : list nat; closed : list nat }.
Definition fresh : st := {| pvs := []; cache := None; opened := []; attached := []; creating := []; closing := []; closed := [] |}.

Inductive event :=
| Add (n p : nat)
| Remove (n : nat)
| CloseAll               (* StaticSource::close() *)
| CloseOne (p : nat)     (* remove() or close() goes on to close the PV *)
| Open (p : nat)
| Close (p : nat)        (* SharedPV::close() by the application *)
| Search (ns : list nat)
| Create (c n : nat)     (* a client creates channel c *)
| Attach (c : nat)       (* onCreate() goes on *)
| Gone (c : nat)         (* a client closes its channel, or disconnects *)
| Names (used : bool).   (* onList(); [used]: an earlier list is still in use *)
Inductive out := ODone | OThrows | OClaims (l : list bool) | ONames (l : list nat) | ORefused | ONothing.

Fixpoint find (n : nat) (l : list (nat * nat)) : option nat :=
  match l with [] => None | (m, p) :: r => if m =? n then Some p else find n r end.
Definition erase (n : nat) (l : list (nat * nat)) : list (nat * nat) := filter (fun x => negb (fst x =? n)) l.
Definition of_pv (p : nat) (x : nat * (nat * nat)) : bool := snd (snd x) =? p.
Fixpoint take (p : nat) (l : list nat) : option (list nat) :=
  match l with [] => None | q :: r => if q =? p then Some r else option_map (cons q) (take p r) end.

(** SharedPV::close(), src/sharedpv.cpp:398-418 *)
Definition close_pv (p : nat) (s : st) : st :=
  {| pvs := pvs s; cache := cache s; opened := filter (fun q => negb (q =? p)) (opened s);
     attached := filter (fun x => negb (of_pv p x)) (attached s); creating := creating s; closing := closing s;
     closed := map fst (filter (of_pv p) (attached s)) ++ closed s |}.
Definition set_closing (l : list nat) (s : st) : st :=
  {| pvs := pvs s; cache := cache s; opened := opened s; attached := attached s; creating := creating s; closing := l; closed := closed s |}.
Definition set_pvs (l : list (nat * nat)) (c : option (list nat)) (s : st) : st :=
  {| pvs := l; cache := c; opened := opened s; attached := attached s; creating := creating s; closing := closing s; closed := closed s |}.
Definition is_some {A} (x : option A) : bool := match x with Some _ => true | None => false end.

(** None: this cannot happen now. *)
Definition step (s : st) (e : event) : option (st * out) :=
  match e with
  (* :568-582 *)
  | Add n p => if is_some (find n (pvs s)) then Some (s, OThrows) else Some (set_pvs ((n, p) :: pvs s) None s, ODone)
  (* :584-604 *)
  | Remove n => match find n (pvs s) with
                | Some p => Some (set_closing (p :: closing s) (set_pvs (erase n (pvs s)) None s), ODone)
                | None => Some (s, ODone)
                end
  (* :554-566 *)
  | CloseAll => Some (set_closing (map snd (pvs s) ++ closing s) s, ODone)
  | CloseOne p => match take p (closing s) with Some l => Some (close_pv p (set_closing l s), ODone) | None => None end
  (* :349-388: throws if it is open *)
  | Open p => if existsb (Nat.eqb p) (opened s) then Some (s, OThrows)
              else Some ({| pvs := pvs s; cache := cache s; opened := p :: opened s; attached := attached s; creating := creating s;
                            closing := closing s; closed := closed s |}, ODone)
  | Close p => Some (close_pv p s, ODone)
  (* :478-488 *)
  | Search ns => Some (s, OClaims (map (fun n => is_some (find n (pvs s))) ns))
  (* :490-504; not found: the channel is left to other sources, or refused *)
  | Create c n => match find n (pvs s) with
                  | Some p => Some ({| pvs := pvs s; cache := cache s; opened := opened s; attached := attached s;
                                       creating := (c, (n, p)) :: creating s; closing := closing s; closed := closed s |}, ONothing)
                  | None => Some (s, ORefused)
                  end
  (* :506, and SharedPV::attach() :300-302; no check whether the PV is still there, or open *)
  | Attach c => match List.find (fun x => fst x =? c) (creating s) with
                | Some x => Some ({| pvs := pvs s; cache := cache s; opened := opened s; attached := x :: attached s;
                                     creating := filter (fun y => negb (fst y =? c)) (creating s); closing := closing s; closed := closed s |}, ODone)
                | None => None
                end
  (* SharedPV::Impl::channels.erase(), :278-297 *)
  | Gone c => Some ({| pvs := pvs s; cache := cache s; opened := opened s; attached := filter (fun y => negb (fst y =? c)) (attached s);
                       creating := creating s; closing := closing s; closed := closed s |}, ONothing)
  (* :509-526 *)
  | Names used =>
      let fill := Some (map fst (pvs s), set_pvs (pvs s) (Some (map fst (pvs s))) s) in
      match (match cache s with Some l => if used then fill else Some (l, s) | None => fill end) with
      | Some (l, s') => Some (s', ONames l)
      | None => None
      end
  end.
Fixpoint run (s : st) (es : list event) : option st :=
  match es with [] => Some s | e :: r => match step s e with Some (s', _) => run s' r | None => None end end.
