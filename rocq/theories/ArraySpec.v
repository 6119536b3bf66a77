(** What C93 says of shared_array<>, over histories of operations of the model
    (ArrayModel.v).  Nothing here but what a program can see of its variables:
    the elements of one, its type, and which variables share their elements. *)

From Coq Require Import ZArith Bool List.
From Verif Require Import Base CopyModel ArrayModel.
Import ListNotations.

Section Spec.
  Variable fp : fpu.

  (** [runs s l s']: the operations [l] lead from [s] to [s'], none of them
      being undefined *)
  Inductive runs : state -> list op -> state -> Prop :=
  | runs_nil s : runs s [] s
  | runs_cons s o l s1 r s2 : step fp s o = (s1, r) -> r <> Undefined -> runs s1 l s2 -> runs s (o :: l) s2.
  Definition start : state := St [] [].
  (** a state in which a program can be *)
  Definition reached (s : state) : Prop := exists l, runs start l s.
End Spec.

(** the elements of a variable *)
Definition shown (s : state) (v : nat) : option (list elem) := option_map (elems s) (var s v).
(** its type: constant or not, void or not, and the type of the elements *)
Definition typed (s : state) (v : nat) (c vd : bool) (t : Z) : Prop :=
  exists h, var s v = Some h /\ h_const h = c /\ h_void h = vd /\ h_type h = t.
Definition is_const (s : state) (v : nat) : Prop := exists h, var s v = Some h /\ h_const h = true.
Definition live (s : state) (v : nat) : Prop := var s v <> None.
(** two variables refer to one memory *)
Definition shares (s : state) (v w : nat) : Prop :=
  exists hv hw b o p, var s v = Some hv /\ var s w = Some hw /\ h_ptr hv = Some (b, o) /\ h_ptr hw = Some (b, p).
(** no other variable refers to the memory of [v] *)
Definition alone (s : state) (v : nat) : Prop := forall w, w <> v -> ~ shares s v w.
(** all variables but [v] show the elements they did *)
Definition others_kept (s s' : state) (v : nat) : Prop :=
  forall w, w <> v -> live s w -> shown s' w = shown s w /\ var s' w = var s w.

(** the operation does not change which elements [v] refers to *)
Definition leaves (v : nat) (o : op) : Prop :=
  match o with
  | Move w | Clear w | Drop w | Resize w _ | MakeUnique w | Freeze w | Thaw w | Assign w _ => w <> v
  | MoveAssign d w | Swap d w => d <> v /\ w <> v
  | _ => True
  end.
(** the operation does not use [v] *)
Definition ignores (v : nat) (o : op) : Prop :=
  match o with
  | Build _ _ _ | Empty _ _ _ | Alloc _ _ => True
  | Copy w | Move w | Clear w | Drop w | Slice w _ _ | Write w _ _ | Resize w _ | MakeUnique w | Freeze w | Thaw w
  | CastVoid w | CastTo _ w | ConvertTo _ w | At w _ => w <> v
  | Assign d w | MoveAssign d w | Swap d w => d <> v /\ w <> v
  end.
