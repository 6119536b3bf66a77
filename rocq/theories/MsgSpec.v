(** Specification vocabulary for messages. *)
From Coq Require Import ZArith List Bool.
From Verif Require Import Base WireModel WireSpec BitMaskModel TypeModel TypeSpec ValueModel ValueSpec MsgModel.
Import ListNotations.
Local Open Scope Z_scope.

(** The receiver did not act on the message. *)
Definition not_acted {A} (r : dres (verdict A * tstore)) : Prop := forall x cache, r <> DOK (Took x, cache).

(** A message written with [write], by a sender of either byte order, into a connection of byte order [be], becomes a fixed sequence
    of bytes; a receiver of either byte order acts on it, understands it as some [x] with [P x], and keeps its
    cache of types; and it does not act on a message of which the end is missing. *)
Definition arrives {A} (be : bool) (write : bool -> wbuf -> outcome wbuf)
  (read : bool -> nat -> bool -> tstore -> list Z -> dres (verdict A * tstore)) (P : A -> Prop) : Prop :=
  exists e x, P x /\
    (forall host pre, write host (outbuf pre be) = OK (outbuf (pre ++ e) be)) /\
    (forall host fuel cache, (length e < fuel)%nat ->
       read be fuel host cache e = DOK (Took x, cache) /\
       forall e1 e2, e = e1 ++ e2 -> e2 <> [] -> not_acted (read be fuel host cache e1)).

Definition u32 (x : Z) : Prop := 0 <= x < 2 ^ 32.

(** [v] is as created from type [m]: nothing marked, every field with its default. *)
Definition new_value (m : member) (v : value) : Prop :=
  v_nodes v = flatten m /\ Forall2 (fun d c => fst c = false /\ sto_init (f_code d) = Some (snd c)) (flatten m) (v_cells v).

(** [v'] is a new Value of the type of [v] which got exactly the marked fields of [v] (of those requested by [mask]). *)
Definition copy_of_marked (m : member) (v : value) (mask : option bmask) (v' : value) : Prop :=
  v_nodes v' = flatten m /\ exists old, new_value m old /\ updated (flatten m) (v_cells v) mask (v_cells old) (v_cells v').

(** A Value which may be sent together with its type. *)
Definition sendable (v : value) : Prop := exists m, value_of m v /\ (levels m <= 21)%nat.
(** A type of which partial updates may be sent. *)
Definition updatable (m : member) : Prop := good_type m /\ m_code m = tc_Struct /\ zlen (flatten m) < 2 ^ 16.

(** A Status which can be sent (C05): of text without NUL. *)
Definition text_ok (s : str) : Prop := zlen s < 2 ^ 32 /\ ~ In 0 s.
Definition status_ok (s : status) : Prop := 0 <= st_code s < 255 /\ text_ok (st_msg s) /\ text_ok (st_trace s).

(** ** Hostile messages *)

(** Every Value in it can be used. *)
Definition all_usable (o : option value) : Prop := forall v, o = Some v -> usable v.
(** [find] knows an operation of the right kind under this number. *)
Definition active (find : Z -> sop) (ioid : Z) : Prop := find ioid <> OpNone /\ find ioid <> OpWrong.
Definition request_ok (find : Z -> sop) (r : request) : Prop :=
  match r with
  | RInit _ _ _ _ v | RMonInit _ _ _ v _ | RValidate _ v => all_usable v
  | RExec _ _ ioid _ v => all_usable v /\ active find ioid
  | RMonCtl _ ioid _ _ => active find ioid
  | RCreate names _ => Forall (fun p => snd p <> []) names
  | _ => True
  end.
Definition reply_ok (r : reply) : Prop :=
  match r with
  | AGpr _ _ _ _ v | AMon _ _ _ v _ | AGetField _ _ v => all_usable v
  | _ => True
  end.
Definition taken {A} (P : A -> Prop) (v : verdict A) : Prop := match v with Took x => P x | _ => True end.
