(** Theorems on marks and iteration: C16, C17, C60 (clear), C61 (iteration
    over all fields). *)
From Coq Require Import String ZArith List Bool Lia ZifyBool ZifyNat Relation_Operators Sorting.Sorted.
From Verif Require Import Base BaseProofs WireModel TypeModel TypeSpec TypeProofs TypeNameProofs ValueModel ValueSpec LayoutProofs
  MarkModel MarkSpec MarkProofs.
Import ListNotations.
Local Open Scope Z_scope.

(** ** C16 *)
Theorem C16_is_marked : forall m nodes cells i parents children,
  storage m nodes cells -> (i < List.length nodes)%nat ->
  exists r, is_marked nodes cells i parents children = DOK r /\
    (r = true <->
       marked cells i
       \/ (parents = true /\ exists k, is_inside nodes k i /\ marked cells k)
       \/ (children = true /\ exists k, is_inside nodes i k /\ marked cells k)).
Proof. intros m nodes cells i p c S B. apply is_marked_ok; [exact (storage_lay _ _ _ S)|exact B]. Qed.
Theorem C16_unmark : forall m nodes cells i parents children,
  storage m nodes cells -> (i < List.length nodes)%nat ->
  exists cells', unmark nodes cells i parents children = DOK cells' /\
    marks_changed (fun k => k = i \/ (parents = true /\ is_inside nodes k i) \/ (children = true /\ is_inside nodes i k))
      false cells cells'.
Proof. intros m nodes cells i p c S B. apply unmark_ok; [exact (storage_lay _ _ _ S)|exact B]. Qed.
(** mark() marks the field and the Union fields around its structure, and
    nothing else, in any heap of values. *)
Theorem C16_mark : forall h t i, created_in_order h -> (t < List.length h)%nat ->
  exists h', mark h t i true = Some h' /\
    heap_marks_changed (fun f => f = (t, i) \/ around h t f) true h h'.
Proof. exact mark_ok. Qed.
Theorem C16_mark_off : forall h t i, (t < List.length h)%nat ->
  exists h', mark h t i false = Some h' /\ heap_marks_changed (fun f => f = (t, i)) false h h'.
Proof. intros h t i B. eexists. split; [reflexivity|]. apply heap_set_mark_ok. Qed.

(** ** C17 *)
Theorem C17_marked_fields : forall m nodes cells i d,
  storage m nodes cells -> nth_error nodes i = Some d -> f_code d = tc_Struct ->
  exists l, imarked nodes cells i = Some l /\ StronglySorted lt l /\
    forall j, In j l <-> is_inside nodes i j /\
      (marked cells j \/ exists k, is_inside nodes i k /\ marked cells k /\ is_inside nodes k j).
Proof.
  intros m nodes cells i d S E C. pose proof (storage_lay _ _ _ S) as L. destruct S as ((D & _) & -> & _).
  pose proof (struct_lookup_size m i d D E C) as SZ. unfold imarked. rewrite E. replace (f_code d =? tc_Struct) with true by lia.
  set (n := List.length (f_lookup d)) in *.
  destruct (imarked_loop_ok _ cells i n d L E SZ (Datatypes.S n) 0 0) as (r & H1 & H2 & H3); [lia|lia|split; [lia|lia]|].
  exists r. split; [exact H1|]. split; [exact H2|]. intro j. rewrite H3. split.
  - intros (q & -> & Q & X). split; [apply (inside_iff _ i _ d L E); lia|]. eapply cover_iff; eauto. lia.
  - intros (I & X). apply (inside_iff _ i j d L E) in I. exists (j - i - 1)%nat. split; [lia|]. split; [lia|].
    apply (cover_iff _ cells i n d L E SZ); [lia|]. replace (i + 1 + (j - i - 1))%nat with j by lia. exact X.
Qed.
(** imarked() of a Union: the selected member, if any. *)
Theorem C17_union_member : forall m d i name k p,
  nth_error (flatten m) i = Some d -> f_code d = tc_Union -> nth_error (f_iter d) p = Some (name, k) ->
  imarked_union (S (List.length (f_iter d))) (f_iter d) (Some k) 0 = Some [p] /\
  imarked_union (S (List.length (f_iter d))) (f_iter d) None 0 = Some [].
Proof.
  intros m d i name k p E C P. split; [|apply imarked_union_none]. eapply imarked_union_some; [|exact P].
  pose proof (flatten_iter_sorted m) as F. rewrite Forall_forall in F. apply F. eapply nth_error_In. exact E.
Qed.

(** ** C61 *)
Theorem C61_all_fields : forall m i d, good_type m -> nth_error (flatten m) i = Some d -> f_code d = tc_Struct ->
  StronglySorted lt (iall (flatten m) i) /\ forall j, In j (iall (flatten m) i) <-> is_inside (flatten m) i j.
Proof. intros m i d G E C. eapply iall_ok; eauto. split; [exact G|]. split; [reflexivity|apply repeat_length]. Qed.
Theorem C61_children : forall m i d, good_type m -> nth_error (flatten m) i = Some d ->
  StronglySorted lt (ichildren (flatten m) i) /\ forall j, In j (ichildren (flatten m) i) <-> is_member (flatten m) i j.
Proof.
  intros m i d G E. eapply ichildren_ok; [|exact E]. eapply (storage_lay m _ (repeat (false, SNull) (List.length (flatten m)))).
  split; [exact G|]. split; [reflexivity|apply repeat_length].
Qed.

(** ** C60 *)
Theorem C60_clear : forall m v i, good_type m -> storage_for m v -> (i < List.length (flatten m))%nat ->
  let cells' := clear (flatten m) (v_cells v) i in
  List.length cells' = List.length (v_cells v) /\
  forall k d, nth_error (flatten m) k = Some d ->
    (k = i \/ is_inside (flatten m) i k -> exists s, nth_error cells' k = Some (false, s) /\ initial d s) /\
    (~ (k = i \/ is_inside (flatten m) i k) -> nth_error cells' k = nth_error (v_cells v) k).
Proof.
  intros m v i G (N & F) B. cbv zeta. assert (L : lay (flatten m)) by (destruct G as (_ & A & C); apply lay_flatten; now apply plist_NoDup).
  assert (LN : List.length (v_cells v) = List.length (flatten m)) by (symmetry; revert F; clear; induction 1; cbn; congruence).
  destruct (node_at (flatten m) i B) as (di & E). pose proof (lay_range _ i di L E) as R.
  assert (R' : (i + f_size di <= List.length (v_cells v))%nat) by lia.
  split; [eapply clear_length; eauto|]. intros k d K. rewrite (clear_nth _ _ i di k E R').
  rewrite (inside_iff _ i k di L E). pose proof (f_size_pos di). split.
  - intro X. replace ((i <=? k)%nat && (k <? i + f_size di)%nat) with true by lia.
    assert (NB : exists c, nth_error (v_cells v) k = Some c /\ exists s, sto_init (f_code d) = Some s /\ same_kind s (snd c)).
    { revert F K. generalize (flatten m), (v_cells v). clear. intros l1 l2 F. revert k. induction F as [|x y l1 l2 P _ IH]; intros [|k] K; try discriminate.
      - injection K as ->. exists y. split; [reflexivity|exact P].
      - exact (IH k K). }
    destruct NB as (c & -> & s & IS & SK). cbn [option_map]. eexists. split; [reflexivity|]. unfold initial.
    rewrite (clear_sto_init d (snd c) s IS SK). exact IS.
  - intro X. replace ((i <=? k)%nat && (k <? i + f_size di)%nat) with false by lia. reflexivity.
Qed.

(** ** Non-vacuity *)

(** struct { int32 x; struct { int32 a; int32 b; } s; union { ... } u; } *)
Definition mk_type : member :=
  Mem tc_Struct [] [] [Mem tc_Int32 (bs "x") [] [];
    Mem tc_Struct (bs "s") [] [Mem tc_Int32 (bs "a") [] []; Mem tc_Int32 (bs "b") [] []];
    Mem tc_Union (bs "u") [] [Mem tc_Int32 (bs "p") [] []; Mem tc_String (bs "q") [] []]].
Definition mk_cells : list cell :=
  [(false, SNull); (false, SInt 1); (true, SNull); (false, SInt 2); (false, SInt 3); (false, SSel None)].
Lemma mk_good : good_type mk_type.
Proof.
  split; [reflexivity|]. split.
  - cbn. repeat match goal with |- _ /\ _ => split | |- True => exact I end;
      try (intro H; repeat constructor; cbn; intuition discriminate); intro H; discriminate.
  - cbn. unfold no_dot. repeat match goal with |- _ /\ _ => split | |- True => exact I end; cbn; intuition discriminate.
Qed.
Example C16_C17_example : storage mk_type (flatten mk_type) mk_cells /\
  imarked (flatten mk_type) mk_cells 0 = Some [2; 3; 4]%nat /\
  is_marked (flatten mk_type) mk_cells 3 true false = DOK true /\
  is_marked (flatten mk_type) mk_cells 3 false false = DOK false /\
  is_marked (flatten mk_type) mk_cells 0 false true = DOK true /\
  iall (flatten mk_type) 2 = [3; 4]%nat /\ ichildren (flatten mk_type) 0 = [1; 2; 5]%nat /\
  imarked_union 3 (f_iter (nth 5 (flatten mk_type) (fd_new 0))) (Some 1%nat) 0 = Some [1]%nat.
Proof. split; [|repeat split]. split; [exact mk_good|]. split; reflexivity. Qed.
(** a union member inside a union inside a struct *)
Definition mk_heap : heap :=
  [(mk_cells, None); ([(false, SNull); (false, SInt 0); (false, SSel None)], Some (0, 5)%nat);
   ([(false, SInt 7)], Some (1, 2)%nat)].
Example C16_mark_example : created_in_order mk_heap /\
  option_map (map (fun p => map fst (fst p))) (mark mk_heap 2 0 true) =
  Some [[false; false; true; false; false; true]; [false; false; true]; [true]].
Proof.
  split; [|reflexivity]. intros t t' i (c & H). destruct t as [|[|[|t]]]; cbn in H; try (inversion H; subst; lia). now destruct t.
Qed.
Example C60_example : storage_for mk_type (Val (flatten mk_type) mk_cells) /\
  clear (flatten mk_type) mk_cells 2 =
  [(false, SNull); (false, SInt 1); (false, SNull); (false, SInt 0); (false, SInt 0); (false, SSel None)].
Proof.
  split; [|reflexivity]. split; [reflexivity|]. cbn. repeat constructor; eexists; (split; [reflexivity|exact I]).
Qed.

Print Assumptions C16_is_marked.
Print Assumptions C16_unmark.
Print Assumptions C16_mark.
Print Assumptions C16_mark_off.
Print Assumptions C17_marked_fields.
Print Assumptions C17_union_member.
Print Assumptions C61_all_fields.
Print Assumptions C61_children.
Print Assumptions C60_clear.
