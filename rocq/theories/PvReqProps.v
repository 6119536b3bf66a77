(** Theorems on field selection: C22. *)
From Coq Require Import String ZArith List Bool Lia ZifyBool ZifyNat Relation_Operators.
From Verif Require Import Base BaseProofs WireModel BitMaskModel BitMaskSpec BitMaskProofs TypeModel TypeSpec TypeProofs TypeNameProofs
  TextModel ValueModel ValueSpec LayoutProofs FieldProofs MarkModel MarkSpec MarkProofs PvReqModel PvReqSpec PvReqProofs.
Import ListNotations.
Local Open Scope Z_scope.

(** ** C22 *)

(** The mask for a structure type [m] of less than 2^16 fields and a request of
    type [q]: everything when the request has no list of fields or an empty one;
    the root and the chosen fields when there are any; otherwise the request is
    refused. *)
Theorem C22_selection : forall m q,
  good_type m -> m_code m = tc_Struct -> Z.of_nat (nfields m) < 2 ^ 16 -> good_type q ->
  (~ (exists rt, asks q rt) ->
     exists mask, request2mask (flatten m) (flatten q) = DOK mask /\ mask_is mask (nfields m) (fun k => (k < nfields m)%nat)) /\
  forall rt, asks q rt ->
    (m_code rt <> tc_Struct -> request2mask (flatten m) (flatten q) = DThrow) /\
    (m_code rt = tc_Struct -> m_children rt = [] ->
       exists mask, request2mask (flatten m) (flatten q) = DOK mask /\ mask_is mask (nfields m) (fun k => (k < nfields m)%nat)) /\
    (m_code rt = tc_Struct -> (exists k, chosen m rt k) ->
       exists mask, request2mask (flatten m) (flatten q) = DOK mask /\ mask_is mask (nfields m) (fun k => k = 0%nat \/ chosen m rt k)) /\
    (m_code rt = tc_Struct -> m_children rt <> [] -> ~ (exists k, chosen m rt k) -> request2mask (flatten m) (flatten q) = DThrow).
Proof.
  intros m q G S B Gq. split; [intro N; now apply no_list_all|]. intros rt A. repeat split; intros.
  - eapply not_list_refused; eauto.
  - eapply empty_list_all; eauto.
  - eapply list_chosen; eauto.
  - eapply list_unknown; eauto.
Qed.
(** Around a chosen field everything is chosen. *)
Theorem C22_ancestors : forall m rt j k, good_type m -> good_type rt ->
  chosen m rt k -> is_inside (flatten m) j k -> j = 0%nat \/ chosen m rt j.
Proof. exact chosen_around. Qed.
(** Whatever request a peer sends (duplicate or odd names): a mask of the right
    size with the root selected, or refused. *)
Theorem C22_hostile_request : forall m q,
  good_type m -> m_code m = tc_Struct -> Z.of_nat (nfields m) < 2 ^ 16 -> describable q = true ->
  match request2mask (flatten m) (flatten q) with
  | DOK mask => exists P, mask_is mask (nfields m) P /\ P 0%nat /\ forall k, P k -> (k < nfields m)%nat
  | DThrow => True
  | DUB | DFuel => False
  end.
Proof. exact request_hostile. Qed.
(** An update matters to a subscriber exactly when it has a marked field which
    is selected. *)
Theorem C22_testmask : forall m nodes cells mask P, storage m nodes cells -> m_code m = tc_Struct ->
  mask_is mask (nfields m) P ->
  exists b, testmask nodes cells mask = Some b /\ (b = true <-> exists k, (k < nfields m)%nat /\ marked cells k /\ P k).
Proof.
  intros m nodes cells mask P (G & -> & L) S M. unfold testmask. unfold first_node at 1. rewrite flatten_hd_code, S.
  change (tc_Struct =? tc_Struct) with true. cbv iota. rewrite (good_size m G), <- nfields_flatten. pose proof (nfields_pos m) as NP.
  change (0%nat :: seq 1 (nfields m - 1)) with (seq 0 (Datatypes.S (nfields m - 1))). replace (Datatypes.S (nfields m - 1)) with (nfields m) by lia.
  destruct (testmask_loop_ok cells mask _ P (seq 0 (nfields m)) M) as (b & E & H); [apply Forall_forall; intros x I; apply in_seq in I; lia|].
  exists b. split; [exact E|]. rewrite H. split.
  - intros (k & I & X). apply in_seq in I. exists k. split; [lia|exact X].
  - intros (k & I & X). exists k. split; [apply in_seq; lia|exact X].
Qed.

(** ** Counterexample: a top level Union *)

(** A channel whose type is a Union instead of a structure: asking for its
    second member reads and writes outside of the type description. *)
Definition union_type : member := Mem tc_Union [] [] [Mem tc_Int32 (bs "a") [] []; Mem tc_Int32 (bs "b") [] []].
Definition field_struct (cs : list member) : member := Mem tc_Struct [] [] [Mem tc_Struct (bs "field") [] cs].
Theorem C22_union_type_refuted :
  good_type union_type /\ good_type (field_struct [Mem tc_Struct (bs "b") [] []]) /\
  request2mask (flatten union_type) (flatten (field_struct [Mem tc_Struct (bs "b") [] []])) = DUB.
Proof.
  split; [|split; [|vm_compute; reflexivity]].
  - split; [reflexivity|]. split; cbn; unfold no_dot; repeat match goal with |- _ /\ _ => split | |- True => exact I end; try (intro H; discriminate); cbn; intuition discriminate.
  - split; [reflexivity|]. split; cbn; unfold no_dot; repeat match goal with |- _ /\ _ => split | |- True => exact I end;
      try (intros _; repeat constructor; cbn; intuition discriminate); cbn; intuition discriminate.
Qed.

(** ** Non-vacuity *)
Definition pr_type : member :=
  Mem tc_Struct [] [] [Mem tc_Int32 (bs "v") [] [];
    Mem tc_Struct (bs "a") [] [Mem tc_Int32 (bs "x") [] []; Mem tc_Int32 (bs "y") [] []];
    Mem tc_Struct (bs "t") [] [Mem tc_Int32 (bs "s") [] []; Mem tc_Int32 (bs "n") [] []]].
Definition pr_req : member :=
  field_struct [Mem tc_Struct (bs "a") [] [Mem tc_Struct (bs "y") [] []]; Mem tc_Struct (bs "t") [] []; Mem tc_Struct (bs "zz") [] []].
Lemma pr_good : good_type pr_type /\ good_type pr_req.
Proof.
  split; (split; [reflexivity|]); split; cbn; unfold no_dot; repeat match goal with |- _ /\ _ => split | |- True => exact I end;
      try (intros _; repeat constructor; cbn; intuition discriminate); try (intro H; discriminate); cbn; intuition discriminate.
Qed.
Example C22_example : good_type pr_type /\ good_type pr_req /\
  match request2mask (flatten pr_type) (flatten pr_req) with
  | DOK m => map (fun i => mbit m (Z.of_nat i)) (seq 0 8) = [true; false; true; false; true; true; true; true]
  | _ => False
  end /\
  request2mask (flatten pr_type) (flatten (field_struct [Mem tc_Struct (bs "zz") [] []])) = DThrow /\
  testmask (flatten pr_type) (repeat (false, SNull) 3 ++ (true, SInt 1) :: repeat (false, SNull) 4) (BM [117] 8) = Some false /\
  testmask (flatten pr_type) (repeat (false, SNull) 4 ++ (true, SInt 1) :: repeat (false, SNull) 3) (BM [117] 8) = Some true.
Proof. split; [apply pr_good|]. split; [apply pr_good|]. vm_compute. auto. Qed.

Print Assumptions C22_selection.
Print Assumptions C22_ancestors.
Print Assumptions C22_hostile_request.
Print Assumptions C22_testmask.
Print Assumptions C22_union_type_refuted.
