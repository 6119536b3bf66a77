(** Specification vocabulary for values. *)
From Coq Require Import ZArith List Bool Relation_Operators.
From Verif Require Import Base WireModel WireSpec BitMaskModel BitMaskSpec TypeModel TypeSpec SegModel ValueModel.
Import ListNotations.
Local Open Scope Z_scope.

(** ** Values of a type *)

(** Width in bytes of the integer codes. *)
Definition int_width (c : Z) : option nat :=
  if c =? tc_Int8 then Some 1%nat else if c =? tc_Int16 then Some 2%nat
  else if c =? tc_Int32 then Some 4%nat else if c =? tc_Int64 then Some 8%nat else None.
Definition uint_width (c : Z) : option nat :=
  if c =? tc_UInt8 then Some 1%nat else if c =? tc_UInt16 then Some 2%nat
  else if c =? tc_UInt32 then Some 4%nat else if c =? tc_UInt64 then Some 8%nat else None.
Definition unsigned_in (n : nat) (x : Z) : Prop := 0 <= x < 2 ^ (8 * Z.of_nat n).
Definition signed_in (n : nat) (x : Z) : Prop :=
  - 2 ^ (8 * Z.of_nat n - 1) <= x < 2 ^ (8 * Z.of_nat n - 1).
Definition pod_elem (c : Z) (n : nat) (x : Z) : Prop :=
  if pod_signed c then signed_in n x else unsigned_in n x.
Definition fits32 {A} (l : list A) : Prop := zlen l <= 0xffffffff.

(** [node_ok d s]: storage [s] holds something a field described by [d] may
    hold.  A selected Union holds a value of one of its members; an Any holds a
    value of any type a receiver accepts; arrays hold elements of the element
    type, or null elements. *)
Inductive node_ok : fdesc -> sto value -> Prop :=
| ok_struct : forall d, f_code d = tc_Struct -> node_ok d SNull
| ok_float32 : forall d x, f_code d = tc_Float32 -> unsigned_in 4 x -> node_ok d (SReal x)
| ok_float64 : forall d x, f_code d = tc_Float64 -> unsigned_in 8 x -> node_ok d (SReal x)
| ok_int : forall d n x, int_width (f_code d) = Some n -> signed_in n x -> node_ok d (SInt x)
| ok_uint : forall d n x, uint_width (f_code d) = Some n -> unsigned_in n x -> node_ok d (SUInt x)
| ok_bool : forall d b, f_code d = tc_Bool -> node_ok d (SBool b)
| ok_str : forall d s, f_code d = tc_String -> fits32 s -> node_ok d (SStr s)
| ok_unselected : forall d, f_code d = tc_Union \/ f_code d = tc_Any -> node_ok d (SSel None)
| ok_union : forall d name i v, f_code d = tc_Union -> In (name, i) (f_iter d) ->
    v_nodes v = sub_desc i (f_members d) -> cells_ok v -> node_ok d (SSel (Some (i, v)))
| ok_any : forall d m v, f_code d = tc_Any -> good_type m -> (levels m <= 21)%nat ->
    v_nodes v = flatten m -> cells_ok v -> node_ok d (SSel (Some (O, v)))
| ok_untyped : forall d, tc_isarray (f_code d) = true -> node_ok d (SArr ANull)
| ok_pod : forall d n l, pod_width (f_code d) = Some n -> Forall (pod_elem (f_code d) n) l -> fits32 l ->
    node_ok d (SArr (APod (f_code d) l))
| ok_strs : forall d l, f_code d = tc_StringA -> Forall fits32 l -> fits32 l -> node_ok d (SArr (AStr l))
| ok_elems : forall d l, f_code d = tc_StructA \/ f_code d = tc_UnionA -> fits32 l ->
    Forall (fun o => forall v, o = Some v -> v_nodes v = f_members d /\ cells_ok v) l ->
    node_ok d (SArr (AVals l))
| ok_anys : forall d l, f_code d = tc_AnyA -> fits32 l ->
    Forall (fun o => forall v, o = Some v ->
      (exists m, good_type m /\ (levels m <= 21)%nat /\ v_nodes v = flatten m) /\ cells_ok v) l ->
    node_ok d (SArr (AVals l))
with cells_ok : value -> Prop :=
| cells_ok_intro : forall nodes cells,
    Forall2 (fun d c => node_ok d (snd c)) nodes cells -> cells_ok (Val nodes cells).

(** [v] is a value of type [m]. *)
Definition value_of (m : member) (v : value) : Prop :=
  good_type m /\ v_nodes v = flatten m /\ cells_ok v.

(** ** Values anyone can hold, also after decoding hostile input

    [usable v]: the type is one a type description can express and its node
    array has exactly the length it claims; each cell holds something its node
    allows.  Unlike for [value_of], member names are arbitrary, an array of
    Union may hold values of other types, and an Any any type. *)
Inductive storable : fdesc -> sto value -> Prop :=
| st_struct : forall d, f_code d = tc_Struct -> storable d SNull
| st_float32 : forall d x, f_code d = tc_Float32 -> unsigned_in 4 x -> storable d (SReal x)
| st_float64 : forall d x, f_code d = tc_Float64 -> unsigned_in 8 x -> storable d (SReal x)
| st_int : forall d n x, int_width (f_code d) = Some n -> signed_in n x -> storable d (SInt x)
| st_uint : forall d n x, uint_width (f_code d) = Some n -> unsigned_in n x -> storable d (SUInt x)
| st_bool : forall d b, f_code d = tc_Bool -> storable d (SBool b)
| st_str : forall d s, f_code d = tc_String -> fits32 s -> storable d (SStr s)
| st_unselected : forall d, f_code d = tc_Union \/ f_code d = tc_Any -> storable d (SSel None)
| st_union : forall d name i v, f_code d = tc_Union -> In (name, i) (f_iter d) ->
    v_nodes v = sub_desc i (f_members d) -> usable v -> storable d (SSel (Some (i, v)))
| st_any : forall d v, f_code d = tc_Any -> usable v -> storable d (SSel (Some (O, v)))
| st_untyped : forall d, tc_isarray (f_code d) = true -> storable d (SArr ANull)
| st_pod : forall d n l, pod_width (f_code d) = Some n -> Forall (pod_elem (f_code d) n) l -> fits32 l ->
    storable d (SArr (APod (f_code d) l))
| st_strs : forall d l, f_code d = tc_StringA -> Forall fits32 l -> fits32 l -> storable d (SArr (AStr l))
| st_vals : forall d l, f_code d = tc_StructA \/ f_code d = tc_UnionA \/ f_code d = tc_AnyA -> fits32 l ->
    Forall (fun o => forall v, o = Some v -> usable v /\ (f_code d = tc_StructA -> v_nodes v = f_members d)) l ->
    storable d (SArr (AVals l))
with usable : value -> Prop :=
| usable_intro : forall m cells, describable m = true -> f_size (first_node (flatten m)) = length (flatten m) ->
    Forall2 (fun d c => storable d (snd c)) (flatten m) cells -> usable (Val (flatten m) cells).

(** ** What the receiver of a complete value holds *)

(** An array is received as an array of the declared element type, also when it
    was sent without any. *)
Definition empty_arr (c : Z) : arr value :=
  match pod_width c with
  | Some _ => APod c []
  | None => if c =? tc_StringA then AStr [] else AVals []
  end.
(** A field of type [d] holding [s]: what was selected, and the elements of
    arrays, arrive as [rec] says.  In an array of Union each element arrives as
    the value selected in it, or as a null element if none is. *)
Definition recv_elem (rec : value -> value) (c : Z) (o : option value) : option value :=
  match o with
  | None => None
  | Some v =>
      if c =? tc_UnionA then
        match v with
        | Val _ ((_, SSel (Some (_, m))) :: _) => Some (rec m)
        | _ => None
        end
      else Some (rec v)
  end.
Definition recv_sto (rec : value -> value) (d : fdesc) (s : sto value) : sto value :=
  match s with
  | SSel (Some (i, v)) => SSel (Some (i, rec v))
  | SArr ANull => SArr (empty_arr (f_code d))
  | SArr (AVals l) => SArr (AVals (map (recv_elem rec (f_code d)) l))
  | _ => s
  end.
(** Every field which is not itself a Struct is marked (if the value is a
    Struct at all). *)
Fixpoint received (v : value) : value :=
  match v with
  | Val nodes cells =>
      Val nodes
        ((fix go (cells : list (bool * sto value)) (ds : list fdesc) : list (bool * sto value) :=
            match cells, ds with
            | (_, s) :: cells', d :: ds' =>
                ((f_code (first_node nodes) =? tc_Struct) && negb (f_code d =? tc_Struct), recv_sto received d s)
                :: go cells' ds'
            | _, _ => []
            end) cells nodes)
  end.

(** All marks removed, at every level: the contents alone. *)
Definition unmark_sto (rec : value -> value) (s : sto value) : sto value :=
  match s with
  | SSel (Some (i, v)) => SSel (Some (i, rec v))
  | SArr (AVals l) => SArr (AVals (map (option_map rec) l))
  | _ => s
  end.
Fixpoint contents (v : value) : value :=
  match v with
  | Val nodes cells => Val nodes (map (fun c => (false, unmark_sto contents (snd c))) cells)
  end.

(** No array of Union and no untyped array anywhere in the value. *)
Inductive plain_value : value -> Prop :=
| plain_intro : forall nodes cells,
    Forall2 (fun d c => plain_sto d (snd c)) nodes cells -> plain_value (Val nodes cells)
with plain_sto : fdesc -> sto value -> Prop :=
| plain_leaf : forall d s, match s with SSel (Some _) | SArr ANull | SArr (AVals _) => False | _ => True end ->
    plain_sto d s
| plain_sel : forall d i v, plain_value v -> plain_sto d (SSel (Some (i, v)))
| plain_vals : forall d l, f_code d <> tc_UnionA -> Forall (fun o => forall v, o = Some v -> plain_value v) l ->
    plain_sto d (SArr (AVals l)).

(** Storage fit for a value of type [m], whatever it holds (for instance from
    earlier updates): one cell of the right kind per node. *)
Definition same_kind (a b : sto value) : Prop :=
  match a, b with
  | SNull, SNull | SReal _, SReal _ | SInt _, SInt _ | SUInt _, SUInt _ | SBool _, SBool _
  | SStr _, SStr _ | SSel _, SSel _ | SArr _, SArr _ => True
  | _, _ => False
  end.
Definition storage_for (m : member) (v : value) : Prop :=
  v_nodes v = flatten m /\
  Forall2 (fun d c => exists s, sto_init (f_code d) = Some s /\ same_kind s (snd c)) (flatten m) (v_cells v).

(** ** Structure of the node array *)

(** Node [j] is a member of the Struct at node [i]. *)
Definition is_member (nodes : list fdesc) (i j : nat) : Prop :=
  exists d name k, nth_error nodes i = Some d /\ f_code d = tc_Struct /\ In (name, k) (f_iter d) /\ j = (i + k)%nat.
(** Node [j] is a member of a member ... of [i]. *)
Definition is_inside (nodes : list fdesc) : nat -> nat -> Prop := clos_trans nat (is_member nodes).

(** ** Partial updates *)

(** Field [j] is sent: it, or a Struct around it, is marked (and requested). *)
Definition selected (cells : list cell) (mask : option bmask) (k : nat) : Prop :=
  (exists s, nth_error cells k = Some (true, s)) /\
  match mask with None => True | Some m => mbit m (Z.of_nat k) = true end.
Definition sent (nodes : list fdesc) (cells : list cell) (mask : option bmask) (j : nat) : Prop :=
  exists k, selected cells mask k /\ (k = j \/ is_inside nodes k j).
(** outermost of the marked (and requested) fields *)
Definition sent_as_such (nodes : list fdesc) (cells : list cell) (mask : option bmask) (j : nat) : Prop :=
  selected cells mask j /\ ~ exists k, selected cells mask k /\ is_inside nodes k j.

(** What field [j] of the receiver holds after the update. *)
Definition updated (nodes : list fdesc) (src : list cell) (mask : option bmask) (old new : list cell) : Prop :=
  length new = length old /\
  forall j d vs ss vo so, nth_error nodes j = Some d ->
    nth_error src j = Some (vs, ss) -> nth_error old j = Some (vo, so) ->
    exists vn sn, nth_error new j = Some (vn, sn) /\
    if f_code d =? tc_Struct
    then sn = so /\ (vn = true <-> vo = true \/ sent_as_such nodes src mask j)
    else (sent nodes src mask j -> vn = true /\ sn = recv_sto received d ss) /\
         (~ sent nodes src mask j -> vn = vo /\ sn = so).

(** ** Outcome of decoding hostile input

    Either the decoder returned something satisfying [P] and left a sound type
    cache, or it threw an exception.  Never undefined behaviour, never unbounded
    recursion. *)
Definition harmless {A} (P : A -> Prop) (r : dres (A * tstore)) : Prop :=
  match r with
  | DOK (x, cache) => P x /\ cache_ok cache
  | DThrow => True
  | DUB | DFuel => False
  end.

(** [mask] is a request for fields of a type with these nodes. *)
Definition mask_fits (nodes : list fdesc) (mask : option bmask) : Prop :=
  match mask with None => True | Some m => bm_wf m /\ bm_size m = zlen nodes end.
