(** Specification vocabulary for the lookup of fields by expression. *)
From Coq Require Import ZArith List Bool.
From Verif Require Import Base TypeModel TypeSpec TextModel ValueModel ValueSpec MarkSpec CopySpec LookupModel.
Import ListNotations.
Local Open Scope Z_scope.

(** ** Values as made with the API, no name left empty: all member names, also those of the types
    held by Any fields, are C identifiers. *)
Definition api_type (m : member) : Prop := good_type m /\ all_names identifier m.
Inductive api_value : value -> Prop :=
| api_intro : forall m cells, api_type m ->
    Forall2 (fun d c => node_ok d (snd c) /\ api_sto (snd c)) (flatten m) cells -> api_value (Val (flatten m) cells)
with api_sto : sto value -> Prop :=
| api_sel : forall k w, api_value w -> api_sto (SSel (Some (k, w)))
| api_vals : forall l, Forall (fun o => forall w, o = Some w -> api_value w) l -> api_sto (SArr (AVals l))
| api_plain : forall s, match s with SSel (Some _) | SArr (AVals _) => False | _ => True end -> api_sto s.

(** ** Expressions *)

(** The steps an expression may be made of: "<" to the structure around a field;
    "a.b.c" to a field inside of a structure; "->name" to a member of a Union;
    "->" to what a Union or Any holds; "[text]" to an element of an array. *)
Inductive step :=
| Up
| Down (path : list str)
| Sel (name : str)
| Deref
| Elem (text : str).
(** The text of an expression.  A "." separates a field name from a preceding
    "]" or Union member. *)
Fixpoint text_of (md : bool) (steps : list step) : str :=
  match steps with
  | [] => []
  | Up :: r => [60] ++ text_of md r
  | Down path :: r => (if md then [46] else []) ++ join path ++ text_of false r
  | Sel n :: r => [45; 62] ++ n ++ text_of true r
  | Deref :: r => [45; 62] ++ text_of false r
  | Elem t :: r => [91] ++ t ++ [93] ++ text_of true r
  end.
Definition down_first (steps : list step) : Prop := match steps with Down _ :: _ => True | _ => False end.
(** the field name right at the start *)
Definition leading (steps : list step) : str := match steps with Down (n :: _) :: _ => n | _ => [] end.

(** ** Where the steps lead *)

(** Member [k] of a Union, by name: the last one of that name. *)
Definition union_member (d : fdesc) (n : str) (k : nat) : Prop :=
  exists before after, f_iter d = before ++ (n, k) :: after /\ ~ In n (map fst after).
(** A new value: each field has its initial content, unmarked. *)
Definition fresh (w : value) : Prop :=
  Forall2 (fun d c => initial d (snd c) /\ fst c = false) (v_nodes w) (v_cells w).

(** [walks modify v i steps v' hops j]: starting at field [i] of [v] the steps
    lead to field [j] of the value reached from [v] through [hops], and leave [v]
    as [v'].  Only with [modify] may a step select another member of a Union,
    which then holds a new value. *)
Inductive walks (modify : bool) : value -> nat -> list step -> value -> list (nat * nat) -> nat -> Prop :=
| w_here : forall v i, walks modify v i [] v [] i
| w_up : forall v p i r v' hops j, is_member (v_nodes v) p i ->
    walks modify v p r v' hops j -> walks modify v i (Up :: r) v' hops j
| w_down : forall v m i d path k c r v' hops j,
    v_nodes v = flatten m -> api_type m -> struct_at m i d -> field_at d path k c -> ~ down_first r ->
    walks modify v (i + k) r v' hops j -> walks modify v i (Down path :: r) v' hops j
| w_selected : forall nodes before b k w after d n r w' hops j,
    nth_error nodes (length before) = Some d -> f_code d = tc_Union -> union_member d n k -> identifier n ->
    walks modify w 0 r w' hops j ->
    walks modify (Val nodes (before ++ (b, SSel (Some (k, w))) :: after)) (length before) (Sel n :: r)
      (Val nodes (before ++ (b, SSel (Some (k, w'))) :: after)) ((length before, 0%nat) :: hops) j
| w_select : forall nodes before b o after d n k w r w' hops j,
    modify = true ->
    nth_error nodes (length before) = Some d -> f_code d = tc_Union -> union_member d n k -> identifier n ->
    (forall x, o <> Some (k, x)) -> v_nodes w = sub_desc k (f_members d) -> fresh w ->
    walks modify w 0 r w' hops j ->
    walks modify (Val nodes (before ++ (b, SSel o) :: after)) (length before) (Sel n :: r)
      (Val nodes (before ++ (b, SSel (Some (k, w'))) :: after)) ((length before, 0%nat) :: hops) j
| w_deref : forall nodes before b k w after d r w' hops j,
    nth_error nodes (length before) = Some d ->
    f_code d = tc_Any \/ (f_code d = tc_Union /\ ~ In (leading r) (map fst (f_iter d))) ->
    walks modify w 0 r w' hops j ->
    walks modify (Val nodes (before ++ (b, SSel (Some (k, w))) :: after)) (length before) (Deref :: r)
      (Val nodes (before ++ (b, SSel (Some (k, w'))) :: after)) ((length before, 0%nat) :: hops) j
| w_elem : forall nodes before b ebefore w eafter after d t r w' hops j,
    nth_error nodes (length before) = Some d ->
    f_code d = tc_StructA \/ f_code d = tc_UnionA \/ f_code d = tc_AnyA ->
    t <> [] -> ~ In 93 t -> parse_u64 t = Some (Z.of_nat (length ebefore)) ->
    walks modify w 0 r w' hops j ->
    walks modify (Val nodes (before ++ (b, SArr (AVals (ebefore ++ Some w :: eafter))) :: after)) (length before) (Elem t :: r)
      (Val nodes (before ++ (b, SArr (AVals (ebefore ++ Some w' :: eafter))) :: after))
      ((length before, length ebefore) :: hops) j.

(** ** What a lookup does, however long it takes *)
Definition finds (modify : bool) (v : value) (i : nat) (expr : str) (v' : value) (r : tres) : Prop :=
  r <> TFuel /\ exists fuel, lookup_expr fuel modify expr v i = (v', r).

(** The value reached through [hops]. *)
Inductive inner : value -> list (nat * nat) -> value -> Prop :=
| in_here : forall v, inner v [] v
| in_sel : forall v i b k w hops x, nth_error (v_cells v) i = Some (b, SSel (Some (k, w))) -> inner w hops x ->
    inner v ((i, 0%nat) :: hops) x
| in_elem : forall v i b l e w hops x, nth_error (v_cells v) i = Some (b, SArr (AVals l)) -> nth_error l e = Some (Some w) ->
    inner w hops x -> inner v ((i, e) :: hops) x.
