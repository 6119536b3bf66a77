(** Specification vocabulary for type descriptions. *)
From Coq Require Import ZArith List Bool.
From Verif Require Import Base WireModel WireSpec TypeModel.
Import ListNotations.
Local Open Scope Z_scope.

(** A type definition which the wire format can describe.  Leaves are simple
    codes (array or not, including Any) without id or members; Struct, Union
    and arrays of them have a type id and named members.  Every length fits the
    32 bit limit of the wire. *)
Definition wire_str (s : str) : bool := zlen s <=? 0xffffffff.
Definition is_array_of_compound (c : Z) : bool := (c =? tc_StructA) || (c =? tc_UnionA).
Definition has_members (c : Z) : bool :=
  (c =? tc_Struct) || (c =? tc_Union) || is_array_of_compound c.
Definition leaf_code (c : Z) : bool :=
  (0 <=? c) && (c <? 256) && tc_simple_scalar (tc_scalarOf c).
Fixpoint describable (m : member) : bool :=
  match m with
  | Mem code name id children =>
      if has_members code
      then wire_str id && (zlen children <=? 0xffffffff)
           && forallb (fun c => wire_str (m_name c) && describable c) children
      else leaf_code code && is_nil id && is_nil children
  end.

(** Nesting depth as counted by the decoder: an array of Struct or Union counts
    once for the array and once for its element. *)
Fixpoint levels (m : member) : nat :=
  match m with
  | Mem code name id children =>
      ((if is_array_of_compound code then 2 else 1)
       + fold_right (fun c acc => Nat.max (levels c) acc) 0 children)%nat
  end.

(** The type without the name of its root, which no value or wire message holds. *)
Definition rename (name : str) (m : member) : member := Mem (m_code m) name (m_id m) (m_children m).

(** A type description in a receiver's cache was built from some type. *)
Definition cache_ok (c : tstore) : Prop :=
  forall k v, ts_find k c = Some v -> exists m, describable m = true /\ v = flatten m.

(** ** Well formed node arrays

    Someone walking the array can only move by the relative indices stored in
    it.  [wf_vec nodes] says that no such move leaves the array and that each
    lands where it should. *)
Inductive wf_vec : list fdesc -> Prop :=
| wf_vec_intro : forall nodes,
    nodes <> [] ->
    (forall i d, nth_error nodes i = Some d -> wf_node nodes i d) ->
    wf_vec nodes
with wf_node : list fdesc -> nat -> fdesc -> Prop :=
| wf_leaf : forall nodes i d,
    has_members (f_code d) = false -> f_iter d = [] -> f_lookup d = [] -> f_members d = [] ->
    wf_node nodes i d
| wf_array : forall nodes i d e rest,
    is_array_of_compound (f_code d) = true -> f_iter d = [] -> f_lookup d = [] ->
    f_members d = e :: rest -> f_code e = tc_scalarOf (f_code d) -> wf_vec (f_members d) ->
    wf_node nodes i d
| wf_struct : forall nodes i d,
    f_code d = tc_Struct -> f_members d = [] ->
    (forall name k, In (name, k) (f_iter d) ->
       (1 <= k)%nat /\ exists c, nth_error nodes (i + k) = Some c /\ f_parent c = k) ->
    (forall path k, In (path, k) (f_lookup d) -> (1 <= k /\ i + k < length nodes)%nat) ->
    wf_node nodes i d
| wf_union : forall nodes i d,
    f_code d = tc_Union ->
    (forall name k, In (name, k) (f_iter d ++ f_lookup d) ->
       exists len, wf_vec (firstn len (skipn k (f_members d)))) ->
    wf_node nodes i d.

(** Following parent_index from any node but the first one leads back to a
    Struct listing that node among its members. *)
Definition parents_ok (nodes : list fdesc) : Prop :=
  forall i d, nth_error nodes i = Some d -> (1 <= i)%nat ->
    exists p name, (f_parent d <= i)%nat /\ nth_error nodes (i - f_parent d) = Some p /\
      f_code p = tc_Struct /\ In (name, f_parent d) (f_iter p).

(** ** Names *)

(** The member reached from a Struct by following member names through nested
    Structs.  (Unions, arrays and Any are not traversed by plain names.) *)
Inductive at_path : member -> list str -> member -> Prop :=
| at_child : forall m c, m_code m = tc_Struct -> In c (m_children m) -> at_path m [m_name c] c
| at_deeper : forall m c path d, m_code m = tc_Struct -> In c (m_children m) ->
    m_code c = tc_Struct -> at_path c path d -> at_path m (m_name c :: path) d.

(** "a.b.c" *)
Fixpoint join (path : list str) : str :=
  match path with
  | [] => []
  | [n] => n
  | n :: path' => n ++ dot :: join path'
  end.

(** The nodes of type [m] hold, from index [i] on, the nodes of type [d] (with
    the link to the parent filled in). *)
Definition located (m : member) (i : nat) (d : member) : Prop :=
  exists pre p post, flatten m = pre ++ set_parent p (flatten d) ++ post /\ length pre = i.

(** Number of fields of a type: a Struct counts itself and all inside it. *)
Fixpoint nfields (m : member) : nat :=
  match m with
  | Mem code name id children =>
      if code =? tc_Struct then S (fold_right (fun c acc => (nfields c + acc)%nat) 0%nat children) else 1%nat
  end.
Definition total_fields (l : list member) : nat := fold_right (fun c acc => (nfields c + acc)%nat) 0%nat l.
(** The member [d] reached by following [path] is field number [i], counting in
    order of declaration, the root being number 0. *)
Inductive field_at : member -> list str -> nat -> member -> Prop :=
| fa_child : forall m before c after, m_code m = tc_Struct -> m_children m = before ++ c :: after ->
    field_at m [m_name c] (1 + total_fields before) c
| fa_deeper : forall m before c after path j d, m_code m = tc_Struct -> m_children m = before ++ c :: after ->
    m_code c = tc_Struct -> field_at c path j d -> field_at m (m_name c :: path) (1 + total_fields before + j) d.

(** Every member name, at any depth, satisfies P. *)
Fixpoint all_names (P : str -> Prop) (m : member) : Prop :=
  match m with
  | Mem code name id children =>
      fold_right (fun c Q => (P (m_name c) /\ all_names P c) /\ Q) True children
  end.
(** No two members of one Struct (or of the element of an array of Struct)
    share a name, at any depth. *)
Fixpoint distinct_struct_names (m : member) : Prop :=
  match m with
  | Mem code name id children =>
      (tc_scalarOf code = tc_Struct -> NoDup (map m_name children)) /\
      fold_right (fun c Q => distinct_struct_names c /\ Q) True children
  end.
Definition no_dot (n : str) : Prop := ~ In dot n.

(** C identifier: a letter or underscore followed by letters, digits and underscores. *)
Definition is_letter (c : Z) : Prop := 65 <= c <= 90 \/ 97 <= c <= 122 \/ c = 95.
Definition is_digit (c : Z) : Prop := 48 <= c <= 57.
Definition identifier (n : str) : Prop :=
  exists c rest, n = c :: rest /\ is_letter c /\ Forall (fun x => is_letter x \/ is_digit x) rest.

(** ** Same shape: same codes, member names and member order; ids and the name
    of the root are ignored. *)
Inductive same_shape : member -> member -> Prop :=
| same_shape_intro : forall a b, m_code a = m_code b ->
    Forall2 (fun x y => m_name x = m_name y /\ same_shape x y) (m_children a) (m_children b) ->
    same_shape a b.

(** A type without Union or array of Union anywhere. *)
Fixpoint union_free (m : member) : bool :=
  match m with
  | Mem code name id children =>
      negb (code =? tc_Union) && negb (code =? tc_UnionA) && forallb union_free children
  end.

(** ** Extension of definitions *)

(** There is a member at [path] below [cs], through members of any kind. *)
Inductive has_path : list member -> list str -> Prop :=
| hp_here : forall cs c, In c cs -> has_path cs [m_name c]
| hp_below : forall cs c path, In c cs -> has_path (m_children c) path -> has_path cs (m_name c :: path).

(** [new] keeps all members of [old], in order and at the front, at every level. *)
Inductive extends : list member -> list member -> Prop :=
| extends_intro : forall old kept added,
    Forall2 (fun o k => m_name o = m_name k /\ extends (m_children o) (m_children k)) old kept ->
    extends old (kept ++ added).

(** A type which can be used: describable, siblings with different names,
    names without dots. *)
Definition good_type (m : member) : Prop :=
  describable m = true /\ distinct_struct_names m /\ all_names no_dot m.

(** Limits of the wire format on an otherwise arbitrary definition: codes are
    bytes and each length fits 32 bits. *)
Fixpoint fits_wire (m : member) : bool :=
  match m with
  | Mem code name id children =>
      (0 <=? code) && (code <? 256) && wire_str name && wire_str id && (zlen children <=? 0xffffffff)
      && forallb fits_wire children
  end.

(** ** Type cache histories *)

(** the wire form of a definition under a key and of a reference to a key *)
Definition two_bytes (be : bool) (key : Z) : list Z :=
  if be then [key / 256; key mod 256] else [key mod 256; key / 256].
Definition define_msg (be : bool) (key : Z) (ty : list Z) : list Z := 0xfd :: two_bytes be key ++ ty.
Definition refer_msg (be : bool) (key : Z) : list Z := 0xfe :: two_bytes be key.

(** Receiving a history of type descriptions, each from its own message, with
    one cache; the results of decoding are ignored here. *)
Fixpoint receive_all (host : bool) (cache : tstore) (msgs : list rbuf) : tstore :=
  match msgs with
  | [] => cache
  | b :: msgs' => receive_all host (snd (fst (from_wire_types host cache b))) msgs'
  end.
