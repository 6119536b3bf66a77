(** What C49, C50 and C68-C70 say, without reference to the code. *)
From Coq Require Import ZArith QArith List.
From Verif Require Import Base ConfigModel.
Import ListNotations.
Local Open Scope Z_scope.

(** the destination of an endpoint: everything but the time to live *)
Definition dest (e : endpoint) : Z * str := (e_addr e, e_iface e).

(** [first_in_order keys l]: [keys] are the elements of [l], each once, in order of first appearance *)
Inductive first_in_order {A} : list A -> list A -> Prop :=
| fio_nil : first_in_order [] []
| fio_new : forall ks l k, first_in_order ks l -> ~ In k l -> first_in_order (ks ++ [k]) (l ++ [k])
| fio_again : forall ks l k, first_in_order ks l -> In k l -> first_in_order ks (l ++ [k]).

(** a timeout which can be used: finite, at least two seconds, and fits time_t *)
Definition usable (t : dbl) : Prop := exists q, t = Fin q /\ (2 <= q)%Q /\ (q < inject_Z (2 ^ 63))%Q.

(** white space in a list of addresses *)
Definition space (c : Z) : Prop := c = 32 \/ c = 9 \/ c = 13 \/ c = 10.
(** [w] is a word of [s]: a stretch without space which can not be extended *)
Definition word_of (w s : str) : Prop :=
  exists pre post, s = pre ++ w ++ post /\ w <> [] /\ Forall (fun c => ~ space c) w /\
    (pre = [] \/ exists p c, pre = p ++ [c] /\ space c) /\ (post = [] \/ exists c p, post = c :: p /\ space c).

Definition same_set {A} (l l' : list A) : Prop := forall a, In a l <-> In a l'.
