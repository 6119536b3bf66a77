(** Theorems on what a subscriber sees: C26. *)
From Coq Require Import String.
From Coq Require Import ZArith List Bool Lia ZifyBool ZifyNat.
From Verif Require Import Base WireModel BitMaskModel BitMaskSpec TypeModel TypeSpec TypeProofs TypeNameProofs LayoutProofs TextModel ValueModel ValueSpec ValueTypeProofs
  MarkModel MarkSpec MarkProofs FieldProofs CopyModel CopySpec CopyProofs CopyProps PvReqModel PvReqSpec PvReqProofs PvReqProps
  ServerMonModel ServerMonSpec ServerMonProofs ServerMonProps ServerViewSpec ServerViewProofs.
Import ListNotations.
Local Open Scope Z_scope.

(** the fields requested include the structures around them *)
Lemma requested_around m q mask : good_type m -> m_code m = tc_Struct -> Z.of_nat (nfields m) < 2 ^ 16 -> good_type q ->
  request2mask (flatten m) (flatten q) = DOK mask ->
  mask_is mask (nfields m) (fun k => mbit mask (Z.of_nat k) = true) /\
  forall i k, mbit mask (Z.of_nat k) = true -> is_inside (flatten m) i k -> mbit mask (Z.of_nat i) = true.
Proof.
  intros G S B Gq E. pose proof (C22_hostile_request m q G S B (proj1 Gq)) as H. rewrite E in H. destruct H as (P & (W & C & Z & MB) & P0 & PB).
  split; [split; [exact W|split; [exact C|split; [exact Z|intro; reflexivity]]]|].
  intros i k K I. destruct (mbit mask (Z.of_nat i)) eqn:MI; [reflexivity|exfalso].
  pose proof (inside_lt _ _ _ (good_lay m G) I) as LT. pose proof (inside_bound _ _ _ (good_lay m G) I) as BD. rewrite <- nfields_flatten in BD.
  assert (ALL : ~ exists mk, request2mask (flatten m) (flatten q) = DOK mk /\ mask_is mk (nfields m) (fun k => (k < nfields m)%nat)).
  { intros (mk & E' & (_ & _ & _ & X)). rewrite E in E'. injection E' as <-. rewrite (proj2 (X i)) in MI by lia. discriminate. }
  destruct (C22_selection m q G S B Gq) as (N & Y). apply ALL, N. intros (rt & A). destruct (Y rt A) as (Y1 & Y2 & Y3 & Y4).
  assert (SR : m_code rt = tc_Struct).
  { destruct (Z.eq_dec (m_code rt) tc_Struct) as [X|X]; [exact X|]. rewrite (Y1 X) in E. discriminate. }
  destruct (m_children rt) as [|ch chs] eqn:CH; [exact (ALL (Y2 SR eq_refl))|]. rewrite <- CH in *.
  assert (NC : ~ exists k, chosen m rt k).
  { intro X. destruct (Y3 SR X) as (mk & E' & (_ & _ & _ & M)). rewrite E in E'. injection E' as <-.
    apply M in K. assert (R : i = 0%nat \/ chosen m rt i).
    { destruct K as [->|K]; [lia|]. destruct A as (ia & A). apply (C22_ancestors m rt i k G); [|exact K|exact I].
      exact (field_at_good q _ _ _ A Gq). }
    apply M in R. congruence. }
  rewrite Y4 in E; [discriminate|exact SR|congruence|exact NC].
Qed.

(** Values of a structure type without Union fields, posted without marking the
    whole value: whenever the queue is drained, each requested field of the
    subscriber is as if it had received every update posted, one by one. *)
Theorem C26_converges_partial : forall fuel fp same m q mask nack pipe qsize es s o c c1 c2 j d,
  exact_widening fp -> types_shared same ->
  good_type m -> m_code m = tc_Struct -> Z.of_nat (nfields m) < 2 ^ 16 -> no_union m ->
  good_type q -> request2mask (flatten m) (flatten q) = DOK mask ->
  reached (list cell) (has_requested (flatten m) mask) (merge_into (S (S fuel)) fp same (flatten m)) nack pipe qsize es s o ->
  (forall u, posted (list cell) es u -> value_of m (Val (flatten m) u) /\ ~ marked u 0) ->
  pending (list cell) s = [] ->
  nth_error (flatten m) j = Some d -> f_code d <> tc_Struct -> mbit mask (Z.of_nat j) = true ->
  List.length c = List.length (flatten m) ->
  receives (flatten m) mask c (sent (list cell) o) c1 ->
  receives (flatten m) mask c (offered (list cell) (has_requested (flatten m) mask) (merge_into (S (S fuel)) fp same (flatten m))
                                  (create (list cell) nack pipe qsize) es) c2 ->
  same_field j c1 c2.
Proof.
  intros fuel fp same m q mask nack pipe qsize es s o c c1 c2 j d FW TS G SM B NU Gq RM R OK PE EN FC MJ LC R1 R2.
  destruct (requested_around m q mask G SM B Gq RM) as (MP & AR).
  set (real := has_requested (flatten m) mask) in *. set (sq := merge_into (S (S fuel)) fp same (flatten m)) in *.
  destruct (C25_order _ real sq nack pipe qsize es s o R) as (g & GR & CG). rewrite PE, app_nil_r in GR.
  set (off := offered _ real sq _ es) in *.
  assert (OF : Forall (upd m) off).
  { apply Forall_forall. intros u H. apply OK. now apply offered_posted in H. }
  assert (OG : Forall (upd m) (concat g)).
  { rewrite CG, accepted_offered. fold off. apply Forall_forall. intros u H. apply filter_In in H. rewrite Forall_forall in OF. now apply OF. }
  assert (OS : Forall (upd m) (sent (list cell) o)).
  { refine (groups_ok _ sq (upd m) _ g _ GR OG). intros a b A1 B1. exact (squash_upd fuel fp same m FW TS G SM NU _ AR a b A1 B1). }
  destruct (nth_error c j) as [(v, x)|] eqn:EC.
  2:{ apply nth_error_None in EC. assert (j < List.length (flatten m))%nat by (apply nth_error_Some; congruence). unfold cell in *. lia. }
  destruct (receives_look m mask G SM _ AR j d EN FC MJ _ c c1 v x R1 OS EC) as (v1 & E1).
  destruct (receives_look m mask G SM _ AR j d EN FC MJ _ c c2 v x R2 OF EC) as (v2 & E2).
  exists v1, v2. eexists. split; [exact E1|]. rewrite E2. f_equal. f_equal.
  pose proof (fun s a b A1 B1 => look_squash fuel fp same m mask FW TS G SM NU _ MP AR j d EN FC MJ s a b A1 B1) as LAW.
  rewrite (fold_groups _ _ sq (upd m) (look m mask G _ AR j d) (fun a b A1 B1 => squash_upd fuel fp same m FW TS G SM NU _ AR a b A1 B1) LAW g _ GR OG).
  rewrite CG, accepted_offered. fold off. symmetry. apply fold_filter with (ok := upd m); [|exact OF].
  intros s0 a A1 RA. exact (look_unreal m mask G SM _ MP AR j d MJ s0 a A1 RA).
Qed.

(** ** Counterexample: a value marked as a whole *)

Definition vw_type : member :=
  Mem tc_Struct [] [] [Mem tc_Int32 (bs "x") [] []; Mem tc_Struct (bs "a") [] [Mem tc_Int32 (bs "y") [] []]].
Lemma vw_good : good_type vw_type.
Proof.
  split; [reflexivity|]. split.
  - cbn. repeat split; intros _; repeat constructor; cbn; try tauto; intros [H|H]; try easy; discriminate.
  - cbn. unfold no_dot. repeat split; intros H; repeat (destruct H as [H|H]; [discriminate|]); exact H.
Qed.
Definition vw_cells (r x a y : bool) (vx vy : Z) : list cell := [(r, SNull); (x, SInt vx); (a, SNull); (y, SInt vy)].
Lemma vw_value r x a y vx vy : signed_in 4 vx -> signed_in 4 vy -> value_of vw_type (Val (flatten vw_type) (vw_cells r x a y vx vy)).
Proof.
  intros X Y. split; [exact vw_good|]. split; [reflexivity|]. constructor.
  repeat constructor; cbn; apply ok_int with (n := 4%nat); auto.
Qed.
(** a request for everything *)
Definition vw_req : member := Mem tc_Struct [] [] [].
Definition vw_mask : bmask := match request2mask (flatten vw_type) (flatten vw_req) with DOK k => k | _ => {| bm_words := []; bm_size := 0 |} end.
Notation vw_run fuel fp same :=
  (run (list cell) (has_requested (flatten vw_type) vw_mask) (merge_into (S (S fuel)) fp same (flatten vw_type)) (create (list cell) 0 false (Some 1%nat))).
Definition vw_post (u : list cell) : event (list cell) := EPost (list cell) (Some u) false false.
Definition vw_start : list (event (list cell)) := [EMsg (list cell) None (Some true) false; EMsgEnd (list cell) false; ETask (list cell)].

(** Two posts into a queue of one: x is set to 1, then everything (marked as a
    whole) to 5.  The subscriber is sent x = 1 only. *)
Theorem C26_root_mark_refuted :
  let u1 := vw_cells false true false false 1 0 in
  let u2 := vw_cells true false false false 5 5 in
  let u3 := vw_cells true true false false 1 0 in
  value_of vw_type (Val (flatten vw_type) u2) /\
  (forall j, (1 <= j < 4)%nat -> ValueSpec.sent (flatten vw_type) u2 (Some vw_mask) j) /\
  forall fp same fuel, exists s o,
    vw_run (3 + fuel)%nat fp same (EConnect (list cell) :: [vw_post u1; vw_post u2] ++ vw_start) = Some (s, o) /\
    sent (list cell) o = [u3] /\ pending (list cell) s = [].
Proof.
  cbv zeta. split; [apply vw_value; unfold signed_in; cbn; lia|]. split.
  - intros j J. exists 0%nat. split; [split; [eexists; reflexivity|vm_compute; reflexivity]|right]. apply root_inside_iff; [exact vw_good|]. cbn. lia.
  - intros fp same fuel. eexists _, _. split; [vm_compute; reflexivity|]. split; reflexivity.
Qed.

(** ** Counterexamples: a type with a Union *)

Definition vu_type : member := Mem tc_Struct [] []
  [Mem tc_Union (bs "u") [] [Mem tc_Int32 (bs "a") [] []; Mem tc_Int32 (bs "b") [] []]; Mem tc_Int32 (bs "x") [] []].
Lemma vu_good : good_type vu_type.
Proof.
  split; [reflexivity|]. split.
  - cbn. repeat split; intros _; repeat constructor; cbn; try tauto; intros [H|H]; try easy; discriminate.
  - cbn. unfold no_dot. repeat split; intros H; repeat (destruct H as [H|H]; [discriminate|]); exact H.
Qed.
(** The Union holds [vu] in member number [k], if any. *)
Definition vu_cells (u : bool) (k : option nat) (vu : Z) (x : bool) (vx : Z) : list cell :=
  [(false, SNull); (u, SSel (option_map (fun k => (k, Val [fd_new tc_Int32] [(true, SInt vu)])) k)); (x, SInt vx)].
Lemma vu_value u k vu x vx : (forall n, k = Some n -> (n < 2)%nat) -> signed_in 4 vu -> signed_in 4 vx -> value_of vu_type (Val (flatten vu_type) (vu_cells u k vu x vx)).
Proof.
  intros K A B. split; [exact vu_good|]. split; [reflexivity|]. constructor. constructor; [now apply ok_struct|].
  constructor; [|constructor; [apply ok_int with (n := 4%nat); [reflexivity|exact B]|constructor]]. cbn [snd].
  destruct k as [n|]; [|apply ok_unselected; now left]. specialize (K n eq_refl). cbn [option_map].
  destruct n as [|[|n]]; [apply ok_union with (name := bs "a")|apply ok_union with (name := bs "b")|lia]; try reflexivity; try (now left); try (now (right; left));
    constructor; constructor; [apply ok_int with (n := 4%nat); [reflexivity|exact A]|constructor|apply ok_int with (n := 4%nat); [reflexivity|exact A]|constructor].
Qed.
Definition vu_mask : bmask := match request2mask (flatten vu_type) (flatten vw_req) with DOK k => k | _ => {| bm_words := []; bm_size := 0 |} end.
Notation vu_run fuel fp same :=
  (run (list cell) (has_requested (flatten vu_type) vu_mask) (merge_into (S (S fuel)) fp same (flatten vu_type)) (create (list cell) 0 false (Some 1%nat))).

(** Two posts into a queue of one: member a is set to 1, then member b to 7.  The subscriber is sent 7 as member a, which never
    held it. *)
Theorem C26_union_refuted :
  let u1 := vu_cells true (Some 0%nat) 1 false 0 in
  let u2 := vu_cells true (Some 1%nat) 7 false 0 in
  let u3 := vu_cells true (Some 0%nat) 7 false 0 in
  value_of vu_type (Val (flatten vu_type) u1) /\ value_of vu_type (Val (flatten vu_type) u2) /\
  forall fp same fuel, exists s o,
    vu_run (3 + fuel)%nat fp same (EConnect (list cell) :: [vw_post u1; vw_post u2] ++ vw_start) = Some (s, o) /\
    sent (list cell) o = [u3] /\ pending (list cell) s = [].
Proof.
  cbv zeta. split; [apply vu_value; [intros n [= <-]; lia|unfold signed_in; cbn; lia|unfold signed_in; cbn; lia]|].
  split; [apply vu_value; [intros n [= <-]; lia|unfold signed_in; cbn; lia|unfold signed_in; cbn; lia]|].
  intros fp same fuel. eexists _, _. split; [vm_compute; reflexivity|]. split; reflexivity.
Qed.
(** The second post leaves the Union without a selection, and sets x to 5: the subscriber is sent the
    old selection with the new x. *)
Theorem C26_unselected_refuted :
  let u1 := vu_cells true (Some 0%nat) 1 false 0 in
  let u2 := vu_cells true None 0 true 5 in
  value_of vu_type (Val (flatten vu_type) u1) /\ value_of vu_type (Val (flatten vu_type) u2) /\
  forall fp same fuel,
    exists s o,
    vu_run (3 + fuel)%nat fp same (EConnect (list cell) :: [vw_post u1; vw_post u2] ++ vw_start) = Some (s, o) /\
    sent (list cell) o = [vu_cells true (Some 0%nat) 1 true 5] /\ pending (list cell) s = [].
Proof.
  cbv zeta. split; [apply vu_value; [intros n [= <-]; lia|unfold signed_in; cbn; lia|unfold signed_in; cbn; lia]|].
  split; [apply vu_value; [discriminate|unfold signed_in; cbn; lia|unfold signed_in; cbn; lia]|].
  intros fp same fuel. eexists _, _. split; [vm_compute; reflexivity|]. split; reflexivity.
Qed.

(** ** Non-vacuity: five updates, three of them merged. *)
Example vw_updates :=
  [vw_cells false true false false 1 0; vw_cells false true false false 2 0; vw_cells false false true false 0 7; vw_cells false true false true 3 8].
Example vw_case : forall fp same fuel, exists s o,
  vw_run (3 + fuel)%nat fp same (EConnect (list cell) :: map vw_post vw_updates ++ vw_start) = Some (s, o) /\
  sent (list cell) o = [vw_cells false true true true 3 8] /\ pending (list cell) s = [] /\
  request2mask (flatten vw_type) (flatten vw_req) = DOK vw_mask /\ no_union vw_type /\
  (forall u, In u vw_updates -> value_of vw_type (Val (flatten vw_type) u) /\ ~ marked u 0).
Proof.
  intros. eexists _, _. split; [vm_compute; reflexivity|]. split; [reflexivity|]. split; [reflexivity|]. split; [vm_compute; reflexivity|].
  split; [repeat constructor; discriminate|]. intros u H. cbn in H.
  repeat (destruct H as [<-|H]; [split; [apply vw_value; unfold signed_in; cbn; lia|intros (z & E); discriminate]|]). contradiction.
Qed.

Print Assumptions C26_converges_partial.
Print Assumptions C26_root_mark_refuted.
Print Assumptions C26_union_refuted.
Print Assumptions C26_unselected_refuted.
