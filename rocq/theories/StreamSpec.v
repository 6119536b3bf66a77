(** Specification vocabulary for successive updates. *)
From Coq Require Import ZArith List Bool.
From Verif Require Import Base WireModel BitMaskModel TypeModel TypeSpec ValueModel ValueSpec MsgModel MsgSpec.
Import ListNotations.
Local Open Scope Z_scope.

(** What the server sends: a Value, of which the marked fields, and the fields the client asked for. *)
Record update := { u_value : value; u_mask : bmask }.
Definition update_of (m : member) (u : update) : Prop := value_of m (u_value u) /\ mask_fits (flatten m) (Some (u_mask u)).
Definition carries (m : member) (u : update) (j : nat) : Prop := sent (flatten m) (v_cells (u_value u)) (Some (u_mask u)) j.

(** Among the updates up to number [i], the content of field [j] last sent; its default if it was never sent. *)
Definition latest (m : member) (us : list update) (i j : nat) (d : fdesc) (s : sto value) : Prop :=
  (exists k u mk ss, (k <= i)%nat /\ nth_error us k = Some u /\ carries m u j /\ nth_error (v_cells (u_value u)) j = Some (mk, ss) /\
     s = recv_sto received d ss /\ forall k' u', (k < k' <= i)%nat -> nth_error us k' = Some u' -> ~ carries m u' j) \/
  ((forall k u, (k <= i)%nat -> nth_error us k = Some u -> ~ carries m u j) /\ sto_init (f_code d) = Some s).

(** No field is a Union or Any. *)
Definition no_variants (m : member) : Prop := Forall (fun d => f_code d <> tc_Union /\ f_code d <> tc_Any) (flatten m).

(** A value of numbers, texts, arrays of these, and structures of such. *)
Definition plain_code (c : Z) : Prop := ~ In c [tc_Union; tc_Any; tc_UnionA; tc_AnyA; tc_StructA].
Definition plain_value (v : value) : Prop := exists m, value_of m v /\ Forall (fun d => plain_code (f_code d)) (flatten m).
(** What the Union and Any fields of [v] hold, if anything, is such a value. *)
Definition plain_contents (v : value) : Prop := forall j mk k w, nth_error (v_cells v) j = Some (mk, SSel (Some (k, w))) -> plain_value w.

(** Array without elements: the element type, if it has one, is left out. *)
Definition untyped_empty (s : sto value) : sto value :=
  match s with
  | SArr (APod _ []) | SArr (AStr []) | SArr (AVals []) => SArr ANull
  | _ => s
  end.
(** Values of one type which hold the same in every field, whatever is marked. *)
Definition alike (v w : value) : Prop :=
  v_nodes w = v_nodes v /\ map (fun c => untyped_empty (snd c)) (v_cells w) = map (fun c => untyped_empty (snd c)) (v_cells v).
(** Contents of a field: the same, where a Union has the same member selected and it, or the Any, holds a value like the other. *)
Definition alike_field (s t : sto value) : Prop :=
  match s with
  | SSel (Some (k, v)) => exists w, t = SSel (Some (k, w)) /\ alike v w
  | _ => t = s
  end.
