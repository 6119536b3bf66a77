(** Proofs on the lookup of fields by expression: any expression on any value. *)
From Coq Require Import ZArith List Bool Lia ZifyBool ZifyNat.
From Verif Require Import Base BaseProofs WireModel TypeModel TypeSpec TypeProofs TypeNameProofs TextModel
  ValueModel ValueSpec MarkSpec CopySpec LayoutProofs FieldProofs ValueTypeProofs ValueSafeProofs ValueRoundProofs
  CopyProofs TextSpec TextProofs LookupModel LookupSpec LookupProofs LookupProofs2.
Import ListNotations.
Local Open Scope Z_scope.

Lemma through_fuel h r : through h r = TFuel -> r = TFuel.
Proof. destruct r; cbn; congruence. Qed.
Lemma through_ub h r : through h r = TUB -> r = TUB.
Proof. destruct r; cbn; congruence. Qed.

(** ** more fuel changes nothing *)
Lemma traverse_mono modify : forall fuel start md s v i v' r, traverse fuel modify start md s v i = (v', r) -> r <> TFuel ->
  traverse (S fuel) modify start md s v i = (v', r).
Proof.
  induction fuel as [|fuel IH]; intros start md s v i v' r TR NF; [cbn in TR; congruence|].
  remember (S fuel) as f1 eqn:F1. cbn [traverse]. rewrite F1 in TR. cbn [traverse] in TR.
  destruct s as [|c s']; [exact TR|].
  destruct (nth_error (v_nodes v) i) as [d|]; [|exact TR].
  destruct (nth_error (v_cells v) i) as [(b & st)|]; [|exact TR].
  destruct (c =? c_up).
  { destruct (i =? 0)%nat; [exact TR|]. destruct (i <? f_parent d)%nat; [exact TR|]. subst f1. now apply IH. }
  destruct (f_code d =? tc_Struct).
  { destruct (md && negb (c =? dot)); [exact TR|]. destruct (cut_at stop_struct _) as (name & rest).
    destruct (start && is_nil name); [exact TR|]. destruct (map_get name (f_lookup d)); [|exact TR]. subst f1. now apply IH. }
  assert (IN : forall md' t w h (g : value -> value),
    (let '(w', x) := traverse fuel modify false md' t w 0 in (g w', through h x)) = (v', r) ->
    (let '(w', x) := traverse f1 modify false md' t w 0 in (g w', through h x)) = (v', r)).
  { intros md' t w h g E. destruct (traverse fuel modify false md' t w 0) as (w' & x) eqn:T.
    assert (x <> TFuel) by (intros ->; injection E as _ <-; now apply NF).
    subst f1. rewrite (IH _ _ _ _ _ _ _ T) by assumption. exact E. }
  destruct ((f_code d =? tc_Union) || (f_code d =? tc_Any)).
  { destruct s' as [|c2 t]; [exact TR|]. destruct ((c =? c_minus) && (c2 =? c_gt)); [|exact TR].
    destruct st as [| | | | | |o|]; try exact TR. destruct (f_code d =? tc_Any).
    - destruct o as [(k & w)|]; [|exact TR]. exact (IN _ _ _ _ (fun w' => with_sto i (SSel (Some (k, w'))) v) TR).
    - destruct (cut_at stop_union t) as (name & rest). destruct (map_get name (f_lookup d)) as [k|].
      + destruct (modify || _); [|exact TR].
        destruct (match o with Some (_, w) => _ | None => _ end) as [w| | |]; try exact TR.
        exact (IN _ _ _ _ (fun w' => with_sto i (SSel (Some (k, w'))) v) TR).
      + destruct o as [(k & w)|]; [|exact TR]. exact (IN _ _ _ _ (fun w' => with_sto i (SSel (Some (k, w'))) v) TR). }
  destruct (tc_isarray (f_code d) && tc_compound (f_code d)); [|exact TR].
  destruct (c =? c_open); [|exact TR]. destruct (cut_at _ s') as ([|x idx] & rest); [exact TR|]. destruct rest as [|c2 t]; [exact TR|].
  destruct (parse_u64 (x :: idx)) as [n|]; [|exact TR]. destruct st as [| | | | | | |a]; try exact TR. destruct a as [|t0 l0|l0|l]; try exact TR.
  destruct (n <? zlen l); [|exact TR]. destruct (nth_error l (Z.to_nat n)) as [[w|]|]; try exact TR.
  exact (IN _ _ _ _ (fun w' => with_sto i (SArr (AVals (cell_set (Z.to_nat n) (Some w') l))) v) TR).
Qed.
Lemma traverse_more modify start md s v i v' r : r <> TFuel -> forall f f', (f <= f')%nat ->
  traverse f modify start md s v i = (v', r) -> traverse f' modify start md s v i = (v', r).
Proof. intro NF. intros f f' L T. induction L as [|f' L IH]; [exact T|]. now apply traverse_mono. Qed.
Lemma traverse_unique modify start md s v i f f' v1 r1 v2 r2 : r1 <> TFuel -> r2 <> TFuel ->
  traverse f modify start md s v i = (v1, r1) -> traverse f' modify start md s v i = (v2, r2) -> v1 = v2 /\ r1 = r2.
Proof.
  intros N1 N2 T1 T2. apply (traverse_more _ _ _ _ _ _ _ _ N1 _ (f + f')%nat (Nat.le_add_r _ _)) in T1.
  apply (traverse_more _ _ _ _ _ _ _ _ N2 _ (f + f')%nat (Nat.le_add_l _ _)) in T2. rewrite T1 in T2. now injection T2 as <- <-.
Qed.

(** ** what is left unchanged *)
Lemma with_sto_nodes i s v : v_nodes (with_sto i s v) = v_nodes v.
Proof. unfold with_sto. now destruct (nth_error (v_cells v) i) as [(b & x)|]. Qed.
Lemma with_sto_same i b s v : nth_error (v_cells v) i = Some (b, s) -> with_sto i s v = v.
Proof.
  intro H. destruct v as [n c]. cbn in H. unfold with_sto. cbn [v_cells v_nodes]. rewrite H. f_equal.
  destruct (split_cell _ _ _ H) as (x & y & -> & <-). apply cell_set_mid.
Qed.
Lemma with_sto_marks i s v : map fst (v_cells (with_sto i s v)) = map fst (v_cells v).
Proof.
  unfold with_sto. destruct (nth_error (v_cells v) i) as [(b & x)|] eqn:H; [|reflexivity]. cbn [v_cells].
  destruct (split_cell _ _ _ H) as (p & q & -> & <-). now rewrite cell_set_mid, !map_app.
Qed.
Lemma cell_set_other {A} (x : A) l : forall i k, k <> i -> nth_error (cell_set i x l) k = nth_error l k.
Proof.
  induction l as [|y l IH]; intros i k N; [now destruct i|]. destruct i as [|i], k as [|k]; cbn; try reflexivity; [lia|]. apply IH. lia.
Qed.
Lemma with_sto_other i s v k : k <> i -> nth_error (v_cells (with_sto i s v)) k = nth_error (v_cells v) k.
Proof.
  intro N. unfold with_sto. destruct (nth_error (v_cells v) i) as [(b & x)|]; [|reflexivity]. cbn [v_cells]. now apply cell_set_other.
Qed.
Lemma with_sto_here i s v b x : nth_error (v_cells v) i = Some (b, x) -> nth_error (v_cells (with_sto i s v)) i = Some (b, s).
Proof.
  intro H. unfold with_sto. rewrite H. cbn [v_cells]. destruct (split_cell _ _ _ H) as (p & q & -> & <-). now rewrite cell_set_mid, nth_mid.
Qed.

(** the value afterwards: the same, or the storage of one Union, Any or array replaced *)
Definition one_changed (v v' : value) : Prop :=
  v' = v \/ exists i s d, v' = with_sto i s v /\ nth_error (v_nodes v) i = Some d /\
    (f_code d = tc_Union \/ f_code d = tc_Any \/ (tc_isarray (f_code d) && tc_compound (f_code d) = true)).
Lemma traverse_one modify : forall fuel start md s v i, one_changed v (fst (traverse fuel modify start md s v i)).
Proof.
  induction fuel as [|fuel IH]; intros start md s v i; [now left|]. cbn [traverse].
  destruct s as [|c s']; [now left|].
  destruct (nth_error (v_nodes v) i) as [d|] eqn:ND; [|now left].
  destruct (nth_error (v_cells v) i) as [(b & st)|]; [|now left].
  destruct (c =? c_up).
  { destruct (i =? 0)%nat; [now left|]. destruct (i <? f_parent d)%nat; [now left|]. apply IH. }
  destruct (f_code d =? tc_Struct).
  { destruct (md && negb (c =? dot)); [now left|]. destruct (cut_at stop_struct _) as (name & rest).
    destruct (start && is_nil name); [now left|]. destruct (map_get name (f_lookup d)); [apply IH|now left]. }
  destruct ((f_code d =? tc_Union) || (f_code d =? tc_Any)) eqn:CU.
  { destruct s' as [|c2 t]; [now left|]. destruct ((c =? c_minus) && (c2 =? c_gt)); [|now left].
    assert (X : f_code d = tc_Union \/ f_code d = tc_Any \/ (tc_isarray (f_code d) && tc_compound (f_code d) = true)) by lia.
    destruct st as [| | | | | |o|]; try now left. destruct (f_code d =? tc_Any).
    - destruct o as [(k & w)|]; [|now left]. destruct (traverse fuel modify false false t w 0) as (w' & r). right. cbn [fst]. eauto 6.
    - destruct (cut_at stop_union t) as (name & rest). destruct (map_get name (f_lookup d)) as [k|].
      + destruct (modify || _); [|now left].
        destruct (match o with Some (_, w) => _ | None => _ end) as [w| | |]; try now left.
        destruct (traverse fuel modify false true rest w 0) as (w' & r). right. cbn [fst]. eauto 6.
      + destruct o as [(k & w)|]; [|now left]. destruct (traverse fuel modify false false t w 0) as (w' & r). right. cbn [fst]. eauto 6. }
  destruct (tc_isarray (f_code d) && tc_compound (f_code d)) eqn:CA; [|now left].
  destruct (c =? c_open); [|now left]. destruct (cut_at _ s') as ([|x idx] & rest); [now left|]. destruct rest as [|c2 t]; [now left|].
  destruct (parse_u64 (x :: idx)) as [n|]; [|now left]. destruct st as [| | | | | | |a]; try now left. destruct a as [|t0 l0|l0|l]; try now left.
  destruct (n <? zlen l); [|now left]. destruct (nth_error l (Z.to_nat n)) as [[w|]|]; try now left.
  destruct (traverse fuel modify false true t w 0) as (w' & r). right. cbn [fst]. eauto 8.
Qed.

(** a const Value is not changed *)
Lemma cell_set_same {A} i (x : A) l : nth_error l i = Some x -> cell_set i x l = l.
Proof. intro H. destruct (split_cell _ _ _ H) as (p & q & -> & <-). apply cell_set_mid. Qed.
Lemma traverse_const : forall fuel start md s v i, fst (traverse fuel false start md s v i) = v.
Proof.
  induction fuel as [|fuel IH]; intros start md s v i; [reflexivity|]. cbn [traverse].
  destruct s as [|c s']; [reflexivity|].
  destruct (nth_error (v_nodes v) i) as [d|] eqn:ND; [|reflexivity].
  destruct (nth_error (v_cells v) i) as [(b & st)|] eqn:HC; [|reflexivity].
  destruct (c =? c_up).
  { destruct (i =? 0)%nat; [reflexivity|]. destruct (i <? f_parent d)%nat; [reflexivity|]. apply IH. }
  destruct (f_code d =? tc_Struct).
  { destruct (md && negb (c =? dot)); [reflexivity|]. destruct (cut_at stop_struct _) as (name & rest).
    destruct (start && is_nil name); [reflexivity|]. destruct (map_get name (f_lookup d)); [apply IH|reflexivity]. }
  assert (IN : forall md' t w h (g : value -> value), g w = v ->
    fst (let '(w', x) := traverse fuel false false md' t w 0 in (g w', through h x)) = v).
  { intros md' t w h g E. pose proof (IH false md' t w 0%nat) as X. destruct (traverse fuel false false md' t w 0) as (w' & x). cbn [fst] in *.
    now subst w'. }
  destruct ((f_code d =? tc_Union) || (f_code d =? tc_Any)).
  { destruct s' as [|c2 t]; [reflexivity|]. destruct ((c =? c_minus) && (c2 =? c_gt)); [|reflexivity].
    destruct st as [| | | | | |o|]; try reflexivity. destruct (f_code d =? tc_Any).
    - destruct o as [(k & w)|]; [|reflexivity]. apply (IN _ _ _ _ (fun w' => with_sto i (SSel (Some (k, w'))) v)). eapply with_sto_same; eauto.
    - destruct (cut_at stop_union t) as (name & rest). destruct (map_get name (f_lookup d)) as [k|].
      + cbn [orb]. destruct o as [(k' & w)|]; [|reflexivity]. destruct (Nat.eqb_spec k' k) as [->|]; [|reflexivity].
        apply (IN _ _ _ _ (fun w' => with_sto i (SSel (Some (k, w'))) v)). eapply with_sto_same; eauto.
      + destruct o as [(k & w)|]; [|reflexivity]. apply (IN _ _ _ _ (fun w' => with_sto i (SSel (Some (k, w'))) v)). eapply with_sto_same; eauto. }
  destruct (tc_isarray (f_code d) && tc_compound (f_code d)) eqn:CA; [|reflexivity].
  destruct (c =? c_open); [|reflexivity]. destruct (cut_at _ s') as ([|x idx] & rest); [reflexivity|]. destruct rest as [|c2 t]; [reflexivity|].
  destruct (parse_u64 (x :: idx)) as [n|]; [|reflexivity]. destruct st as [| | | | | | |a]; try reflexivity. destruct a as [|t0 l0|l0|l]; try reflexivity.
  destruct (n <? zlen l); [|reflexivity]. destruct (nth_error l (Z.to_nat n)) as [[w|]|] eqn:NE; try reflexivity.
  apply (IN _ _ _ _ (fun w' => with_sto i (SArr (AVals (cell_set (Z.to_nat n) (Some w') l))) v)).
  rewrite (cell_set_same _ _ _ NE). eapply with_sto_same; eauto.
Qed.

(** ** any expression on any usable value *)
Lemma usable_type v : usable v -> exists m, describable m = true /\ sized m /\ v_nodes v = flatten m /\ length (v_cells v) = length (v_nodes v).
Proof. intros [m cells D S F]. exists m. cbn. repeat split; auto. symmetry. exact (Forall2_len _ _ _ F). Qed.
Lemma usable_cell v i d b s : usable v -> nth_error (v_nodes v) i = Some d -> nth_error (v_cells v) i = Some (b, s) -> is_typed d /\ storable d s.
Proof.
  intros [m cells D S F] E E'. cbn in *. split; [|exact (Forall2_nth _ _ _ _ _ _ F E E')].
  pose proof (flatten_typed m D) as FA. rewrite Forall_forall in FA. apply FA. eapply nth_error_In; eauto.
Qed.
Lemma Forall2_set {A B} (R : A -> B -> Prop) l : forall l' i a b, Forall2 R l l' -> nth_error l i = Some a -> R a b -> Forall2 R l (cell_set i b l').
Proof.
  induction l as [|x l IH]; intros l' i a b F E H; [destruct i; discriminate|].
  inversion F as [|? y ? l1 H1 F1]; subst. destruct i as [|i]; cbn in *.
  - injection E as ->. now constructor.
  - constructor; eauto.
Qed.
Lemma usable_with v i d s : usable v -> nth_error (v_nodes v) i = Some d -> storable d s -> usable (with_sto i s v).
Proof.
  intros U E H. unfold with_sto. destruct (nth_error (v_cells v) i) as [(b & x)|] eqn:C; [|exact U].
  destruct U as [m cells D S F]. cbn in *. constructor; auto. eapply Forall2_set; eauto.
Qed.
Lemma usable_nonempty v : usable v -> (0 < length (v_nodes v))%nat.
Proof. intro U. destruct (usable_type v U) as (m & _ & _ & -> & _). rewrite <- nfields_flatten. apply nfields_pos. Qed.
Lemma usable_struct_step v i d name k : usable v -> nth_error (v_nodes v) i = Some d -> f_code d = tc_Struct ->
  map_get name (f_lookup d) = Some k -> (1 <= k)%nat /\ (i + k < length (v_nodes v))%nat.
Proof.
  intros U ND CS MG. destruct (usable_type v U) as (m & D & SZ & NV & _). rewrite NV in *.
  assert (X : exists sd, m_code sd = tc_Struct /\ f_lookup d = lookup_of sd /\ (i + nfields sd <= nfields m)%nat).
  { destruct i as [|i].
    - exists m. pose proof (flatten_hd_code m) as H. unfold lookup_of. destruct (flatten m) as [|x r]; [discriminate|]. cbn in *. injection ND as ->.
      split; [congruence|]. split; [reflexivity|lia].
    - assert (L : (1 <= S i < nfields m)%nat) by (rewrite nfields_flatten; split; [lia|]; apply nth_error_Some; now rewrite ND).
      destruct (field_at_total m (S i) L) as (path & sd & F).
      destruct (located_node m (S i) sd (field_at_located _ _ _ _ F)) as (nd' & E' & C' & LK & _). rewrite ND in E'. injection E' as <-.
      exists sd. split; [congruence|]. split; [exact LK|]. exact (field_at_sub_bound _ _ _ _ F). }
  destruct X as (sd & SC & LK & B). rewrite LK in MG. destruct (lookup_field_only sd name k SC MG) as (path & fd & _ & F).
  pose proof (field_at_bound _ _ _ _ F). rewrite nfields_flatten in B. rewrite nfields_flatten in B. rewrite nfields_flatten in H. lia.
Qed.
Lemma new_member d name k w : is_typed d -> f_code d = tc_Union -> map_get name (f_lookup d) = Some k ->
  value_new (sub_desc k (f_members d)) = DOK w -> In (name, k) (f_iter d) /\ v_nodes w = sub_desc k (f_members d) /\ usable w.
Proof.
  intros T C MG VN. rewrite (union_lookup d name T C) in MG. apply get_last_In in MG. split; [exact MG|].
  destruct (node_typed_iter d T C name k MG) as (c & D & SD). rewrite SD in *.
  destruct (value_new_spec c (firstn (f_size (first_node (flatten c))) (flatten c)) D) as (V1 & V2).
  { intros j J. now apply nth_error_firstn_lt. }
  destruct (Nat.eq_dec (f_size (first_node (flatten c))) (length (flatten c))) as [SZ|SZ].
  - rewrite SZ, firstn_all in *. rewrite (V1 SZ) in VN.
    assert (EW : w = Val (flatten c) (map (fun d => (false, init_sto d)) (flatten c))) by congruence. rewrite EW. cbn [v_nodes]. split; [reflexivity|]. constructor; auto. now apply new_cells_good.
  - rewrite (V2 SZ) in VN. discriminate.
Qed.
Lemma new_member_ok d name k : is_typed d -> f_code d = tc_Union -> map_get name (f_lookup d) = Some k ->
  (exists w, value_new (sub_desc k (f_members d)) = DOK w) \/ value_new (sub_desc k (f_members d)) = DThrow.
Proof.
  intros T C MG. rewrite (union_lookup d name T C) in MG. apply get_last_In in MG.
  destruct (node_typed_iter d T C name k MG) as (c & D & SD). rewrite SD in *.
  destruct (value_new_spec c (firstn (f_size (first_node (flatten c))) (flatten c)) D) as (V1 & V2).
  { intros j J. now apply nth_error_firstn_lt. }
  destruct (Nat.eq_dec (f_size (first_node (flatten c))) (length (flatten c))) as [SZ|SZ]; [left; eexists; exact (V1 SZ)|right; exact (V2 SZ)].
Qed.

Definition lands (v' : value) (r : tres) : Prop :=
  forall hops j, r = At hops j -> exists w, inner v' hops w /\ usable w /\ (j < length (v_nodes w))%nat.
Definition fine (v : value) (p : value * tres) : Prop :=
  usable (fst p) /\ v_nodes (fst p) = v_nodes v /\ snd p <> TUB /\ lands (fst p) (snd p).
Lemma fine_stay v r : usable v -> match r with At _ _ | TUB => False | _ => True end -> fine v (v, r).
Proof. intros U H. split; [exact U|]. split; [reflexivity|]. cbn [fst snd]. split; [now destruct r|]. intros hops j ->. contradiction. Qed.
Lemma fine_through v i d b st st' h w w' r :
  usable v -> nth_error (v_nodes v) i = Some d -> nth_error (v_cells v) i = Some (b, st) -> storable d st' ->
  (forall hops x, inner w' hops x -> inner (with_sto i st' v) (h :: hops) x) -> fine w (w', r) -> fine v (with_sto i st' v, through h r).
Proof.
  intros U ND HC ST IN (F1 & F2 & F3 & F4). cbn [fst snd] in *. split; [eapply usable_with; eauto|]. split; [apply with_sto_nodes|].
  split; [intro X; apply through_ub in X; contradiction|]. cbn [fst snd]. intros hops j X. apply through_at in X. destruct X as (l & -> & ->).
  destruct (F4 l j eq_refl) as (x & I1 & I2 & I3). exists x. auto.
Qed.
Lemma traverse_fine modify : forall fuel start md s v i, usable v -> (i < length (v_nodes v))%nat -> fine v (traverse fuel modify start md s v i).
Proof.
  induction fuel as [|fuel IH]; intros start md s v i U IB; [now apply fine_stay|]. cbn [traverse].
  destruct s as [|c s'].
  { split; [exact U|]. split; [reflexivity|]. split; [discriminate|]. cbn [fst snd]. intros hops j E. injection E as <- <-. exists v. repeat split; auto. constructor. }
  destruct (nth_error (v_nodes v) i) as [d|] eqn:ND; [|apply nth_error_None in ND; lia].
  destruct (nth_error (v_cells v) i) as [(b & st)|] eqn:HC.
  2:{ apply nth_error_None in HC. destruct (usable_type v U) as (m & _ & _ & _ & L). lia. }
  destruct (usable_cell v i d b st U ND HC) as (TY & ST).
  destruct (c =? c_up).
  { destruct (i =? 0)%nat eqn:I0; [now apply fine_stay|].
    destruct (usable_type v U) as (m & D & SZ & NV & _). assert (LY : lay (v_nodes v)) by (rewrite NV; now apply sized_lay).
    destruct (lay_parent _ _ _ LY ND ltac:(lia)) as (p & M & P & _). replace (i <? f_parent d)%nat with false by lia.
    apply IH; [exact U|lia]. }
  destruct (f_code d =? tc_Struct) eqn:CS.
  { destruct (md && negb (c =? dot)); [now apply fine_stay|]. destruct (cut_at stop_struct _) as (name & rest).
    destruct (start && is_nil name); [now apply fine_stay|]. destruct (map_get name (f_lookup d)) as [k|] eqn:MG; [|now apply fine_stay].
    apply IH; [exact U|]. eapply usable_struct_step; eauto. lia. }
  assert (SEL : forall k w w' r, fine w (w', r) -> storable d (SSel (Some (k, w'))) ->
     fine v (with_sto i (SSel (Some (k, w'))) v, through (i, 0%nat) r)).
  { intros k w w' r F ST'. eapply fine_through; eauto. intros hops x IX. eapply in_sel; [|exact IX]. eapply with_sto_here; eauto. }
  destruct ((f_code d =? tc_Union) || (f_code d =? tc_Any)) eqn:CUA.
  { destruct s' as [|c2 t]; [now apply fine_stay|]. destruct ((c =? c_minus) && (c2 =? c_gt)); [|now apply fine_stay].
    assert (SO : exists o, st = SSel o).
    { clear - ST CUA CS. inversion ST; subst; eauto; exfalso;
        try (match goal with H : int_width (f_code d) = Some _ |- _ => unfold int_width in H end);
        try (match goal with H : uint_width (f_code d) = Some _ |- _ => unfold uint_width in H end);
        try (match goal with H : pod_width (f_code d) = Some _ |- _ => apply pod_isarray in H; destruct H as (H & _) end);
        try (match goal with H : f_code d = _ |- _ => rewrite H in *; discriminate end).
      all: apply orb_true_iff in CUA; destruct CUA as [X|X]; apply Z.eqb_eq in X; rewrite X in *; try discriminate.
      all: match goal with H : _ \/ _ |- _ => destruct H as [H|[H|H]]; discriminate H end. }
    destruct SO as (o & ->). destruct (f_code d =? tc_Any) eqn:CA.
    - destruct o as [(k & w)|]; [|now apply fine_stay].
      assert (UW : usable w /\ k = 0%nat).
      { inversion ST; subst; auto. match goal with H : f_code d = tc_Union |- _ => rewrite H in CA; discriminate end. }
      destruct UW as (UW & ->). pose proof (IH false false t w 0%nat UW (usable_nonempty w UW)) as F.
      destruct (traverse fuel modify false false t w 0) as (w' & r). apply (SEL 0%nat w); [exact F|]. apply st_any; [lia|apply F].
    - assert (C : f_code d = tc_Union) by lia.
      assert (HELD : forall k w, o = Some (k, w) -> usable w /\ exists n, In (n, k) (f_iter d) /\ v_nodes w = sub_desc k (f_members d)).
      { intros k w ->. inversion ST; subst; [split; eauto|]. exfalso. match goal with H : f_code d = tc_Any |- _ => rewrite C in H; discriminate H end. }
      assert (STO : forall k w w' r n, fine w (w', r) -> In (n, k) (f_iter d) -> v_nodes w = sub_desc k (f_members d) -> storable d (SSel (Some (k, w')))).
      { intros k w w' r n (F1 & F2 & _) I1 I2. eapply st_union; eauto. cbn [fst] in F2. congruence. }
      destruct (cut_at stop_union t) as (name & rest). destruct (map_get name (f_lookup d)) as [k|] eqn:MG.
      + destruct (modify || _); [|now apply fine_stay].
        assert (G : forall w n, usable w -> In (n, k) (f_iter d) -> v_nodes w = sub_desc k (f_members d) ->
          fine v (let '(w', r) := traverse fuel modify false true rest w 0 in (with_sto i (SSel (Some (k, w'))) v, through (i, 0%nat) r))).
        { intros w n UW I1 I2. pose proof (IH false true rest w 0%nat UW (usable_nonempty w UW)) as F.
          destruct (traverse fuel modify false true rest w 0) as (w' & r). apply (SEL k w); [exact F|]. eapply STO; eauto. }
        assert (NEW : fine v match value_new (sub_desc k (f_members d)) with
           | DOK w => let '(w', r) := traverse fuel modify false true rest w 0 in (with_sto i (SSel (Some (k, w'))) v, through (i, 0%nat) r)
           | DThrow => (v, Threw) | DUB => (v, TUB) | DFuel => (v, TFuel) end).
        { destruct (new_member_ok d name k TY C MG) as [(w & VN)|VN]; rewrite VN; [|now apply fine_stay].
          destruct (new_member d name k w TY C MG VN) as (I1 & I2 & UW). eapply G; eauto. }
        destruct o as [(k' & w)|]; [|exact NEW]. destruct (Nat.eqb_spec k' k) as [->|NE]; [|exact NEW].
        destruct (HELD k w eq_refl) as (UW & n & I1 & I2). eapply G; eauto.
      + destruct o as [(k & w)|]; [|now apply fine_stay]. destruct (HELD k w eq_refl) as (UW & n & I1 & I2).
        pose proof (IH false false t w 0%nat UW (usable_nonempty w UW)) as F.
        destruct (traverse fuel modify false false t w 0) as (w' & r). apply (SEL k w); [exact F|]. eapply STO; eauto. }
  destruct (tc_isarray (f_code d) && tc_compound (f_code d)) eqn:CA; [|now apply fine_stay].
  destruct (c =? c_open); [|now apply fine_stay]. destruct (cut_at _ s') as ([|x idx] & rest); [now apply fine_stay|].
  destruct rest as [|c2 t]; [now apply fine_stay|].
  destruct (parse_u64 (x :: idx)) as [n|]; [|now apply fine_stay].
  assert (SO : exists a, st = SArr a).
  { clear - ST CA CS. inversion ST; subst; eauto; exfalso;
      try (match goal with H : f_code d = _ |- _ => rewrite H in *; discriminate end).
    - apply int_width_code in H. destruct H as (H & _). apply int_codes in H. cbn [In] in H. destruct H as [X|[X|[X|[X|[X|[X|[X|[X|[]]]]]]]]]; rewrite <- X in CA; discriminate CA.
    - apply uint_width_code in H. destruct H as (H & _). apply int_codes in H. cbn [In] in H. destruct H as [X|[X|[X|[X|[X|[X|[X|[X|[]]]]]]]]]; rewrite <- X in CA; discriminate CA.
    - destruct H as [X|X]; rewrite X in CA; discriminate CA. }
  destruct SO as (a & ->). destruct a as [|t0 l0|l0|l]; try now apply fine_stay.
  destruct (n <? zlen l); [|now apply fine_stay]. destruct (nth_error l (Z.to_nat n)) as [[w|]|] eqn:NE; try now apply fine_stay.
  assert (EL : (f_code d = tc_StructA \/ f_code d = tc_UnionA \/ f_code d = tc_AnyA) /\ fits32 l /\
     Forall (fun o => forall v, o = Some v -> usable v /\ (f_code d = tc_StructA -> v_nodes v = f_members d)) l).
  { inversion ST; subst; auto. }
  destruct EL as (E1 & E2 & E3). assert (UW : usable w /\ (f_code d = tc_StructA -> v_nodes w = f_members d)).
  { rewrite Forall_forall in E3. apply nth_error_In in NE. exact (E3 _ NE w eq_refl). }
  destruct UW as (UW & EW). pose proof (IH false true t w 0%nat UW (usable_nonempty w UW)) as F.
  destruct (traverse fuel modify false true t w 0) as (w' & r).
  destruct (split_cell _ _ _ NE) as (eb & ea & EQ & LEB). rewrite <- LEB. rewrite EQ, cell_set_mid.
  eapply fine_through; eauto.
  - apply st_vals; [exact E1|unfold fits32, zlen in *; rewrite EQ, !app_length in E2; rewrite !app_length; cbn [length] in *; lia|].
    rewrite EQ in E3. apply Forall_app in E3. destruct E3 as (E3 & E4). inversion E4 as [|? ? E5 E6]; subst.
    apply Forall_app. split; [exact E3|]. constructor; [|exact E6]. intros x0 X. injection X as <-.
    destruct F as (F1 & F2 & _). cbn [fst] in *. split; [exact F1|]. intro Y. rewrite F2. now apply EW.
  - intros hops y IY. eapply in_elem; [eapply with_sto_here; eauto| |exact IY]. apply nth_mid.
Qed.

(** ** every lookup ends *)
Lemma cut_le stop s : (length (snd (cut_at stop s)) <= length s)%nat.
Proof.
  induction s as [|c s IH]; cbn [cut_at]; [easy|]. destruct (stop c); [cbn; lia|]. destruct (cut_at stop s). cbn in *. lia.
Qed.
Lemma traverse_ends modify : forall n s, (length s <= n)%nat -> forall k start md v i, usable v -> (i < length (v_nodes v))%nat ->
  (length (v_nodes v) - i <= k)%nat -> exists fuel, snd (traverse fuel modify start md s v i) <> TFuel.
Proof.
  induction n as [n IHn] using lt_wf_ind. intros s LS. induction k as [|k IHk]; intros start md v i U IB LK; [lia|].
  destruct s as [|c s'].
  { exists 1%nat. cbn. discriminate. }
  assert (SHORT : forall t start md v i, (length t <= length s')%nat -> usable v -> (i < length (v_nodes v))%nat ->
     exists fuel, snd (traverse fuel modify start md t v i) <> TFuel).
  { clear IHk LK U IB. intros t st0 md0 v0 i0 LT U0 IB0. cbn [length] in LS. eapply (IHn (length t)); eauto; lia. }
  (* what one step does *)
  assert (ONE : forall (P : nat -> value * tres), (forall f, P f = traverse (S f) modify start md (c :: s') v i) ->
     (exists f, snd (P f) <> TFuel) -> exists fuel, snd (traverse fuel modify start md (c :: s') v i) <> TFuel).
  { intros P EP (f & H). exists (S f). now rewrite <- EP. }
  eapply ONE; [intro f; cbn [traverse]; reflexivity|]. clear ONE. cbv beta.
  destruct (nth_error (v_nodes v) i) as [d|] eqn:ND; [|exists 0%nat; discriminate].
  destruct (nth_error (v_cells v) i) as [(b & st)|] eqn:HC; [|exists 0%nat; discriminate].
  destruct (usable_cell v i d b st U ND HC) as (TY & ST).
  destruct (c =? c_up).
  { destruct (i =? 0)%nat; [exists 0%nat; discriminate|]. destruct (i <? f_parent d)%nat; [exists 0%nat; discriminate|]. apply SHORT; [lia|exact U|lia]. }
  destruct (f_code d =? tc_Struct) eqn:CS.
  { destruct (md && negb (c =? dot)); [exists 0%nat; discriminate|]. destruct (cut_at stop_struct _) as (name & rest) eqn:CUT.
    destruct (start && is_nil name); [exists 0%nat; discriminate|]. destruct (map_get name (f_lookup d)) as [q|] eqn:MG; [|exists 0%nat; discriminate].
    destruct (usable_struct_step v i d name q U ND ltac:(lia) MG) as (Q1 & Q2).
    destruct (cut_at_spec _ _ _ _ CUT) as (ES & _ & _).
    destruct md; [apply SHORT; [rewrite ES, app_length; lia|exact U|exact Q2]|].
    destruct name as [|x name].
    - cbn [app] in ES. subst rest. apply IHk; [exact U|exact Q2|lia].
    - cbn [app] in ES. injection ES as -> ->. apply SHORT; [rewrite app_length; lia|exact U|exact Q2]. }
  assert (IN : forall md' t w h (g : value -> value), (length t <= length s')%nat -> usable w ->
    exists f, snd (let '(w', x) := traverse f modify false md' t w 0 in (g w', through h x)) <> TFuel).
  { intros md' t w h g LT UW. destruct (SHORT t false md' w 0%nat LT UW (usable_nonempty w UW)) as (f & F). exists f.
    destruct (traverse f modify false md' t w 0) as (w' & x). cbn [snd] in *. intro X. apply through_fuel in X. contradiction. }
  destruct ((f_code d =? tc_Union) || (f_code d =? tc_Any)) eqn:CUA.
  { destruct s' as [|c2 t]; [exists 0%nat; discriminate|]. destruct ((c =? c_minus) && (c2 =? c_gt)); [|exists 0%nat; discriminate].
    destruct st as [| | | | | |o|]; try (exists 0%nat; discriminate).
    assert (HELD : forall k w, o = Some (k, w) -> usable w).
    { intros k0 w ->. inversion ST; subst; auto. }
    destruct (f_code d =? tc_Any) eqn:CA.
    - destruct o as [(k0 & w)|]; [|exists 0%nat; discriminate].
      apply (IN _ _ _ _ (fun w' => with_sto i (SSel (Some (k0, w'))) v)); [cbn [length]; lia|eauto].
    - assert (C : f_code d = tc_Union) by lia. destruct (cut_at stop_union t) as (name & rest) eqn:CUT.
      assert (LR : (length rest <= length (c2 :: t))%nat).
      { pose proof (cut_le stop_union t) as X. rewrite CUT in X. cbn [snd length] in *. lia. }
      destruct (map_get name (f_lookup d)) as [k0|] eqn:MG.
      + destruct (modify || _); [|exists 0%nat; discriminate].
        assert (NEW : exists f, snd match value_new (sub_desc k0 (f_members d)) with
           | DOK w => let '(w', r) := traverse f modify false true rest w 0 in (with_sto i (SSel (Some (k0, w'))) v, through (i, 0%nat) r)
           | DThrow => (v, Threw) | DUB => (v, TUB) | DFuel => (v, TFuel) end <> TFuel).
        { destruct (new_member_ok d name k0 TY C MG) as [(w & VN)|VN]; rewrite VN; [|exists 0%nat; discriminate].
          destruct (new_member d name k0 w TY C MG VN) as (_ & _ & UW). apply (IN _ _ _ _ (fun w' => with_sto i (SSel (Some (k0, w'))) v)); auto. }
        destruct o as [(k' & w)|]; [|exact NEW]. destruct (Nat.eqb k' k0); [|exact NEW].
        apply (IN _ _ _ _ (fun w' => with_sto i (SSel (Some (k0, w'))) v)); eauto.
      + destruct o as [(k0 & w)|]; [|exists 0%nat; discriminate].
        apply (IN _ _ _ _ (fun w' => with_sto i (SSel (Some (k0, w'))) v)); [cbn [length]; lia|eauto]. }
  destruct (tc_isarray (f_code d) && tc_compound (f_code d)); [|exists 0%nat; discriminate].
  destruct (c =? c_open); [|exists 0%nat; discriminate]. destruct (cut_at _ s') as ([|x idx] & rest) eqn:CUT; [exists 0%nat; discriminate|].
  destruct rest as [|c2 t]; [exists 0%nat; discriminate|].
  destruct (parse_u64 (x :: idx)) as [m|]; [|exists 0%nat; discriminate]. destruct st as [| | | | | | |a]; try (exists 0%nat; discriminate).
  destruct a as [|t0 l0|l0|l]; try (exists 0%nat; discriminate).
  destruct (m <? zlen l); [|exists 0%nat; discriminate]. destruct (nth_error l (Z.to_nat m)) as [[w|]|] eqn:NE; try (exists 0%nat; discriminate).
  apply (IN _ _ _ _ (fun w' => with_sto i (SArr (AVals (cell_set (Z.to_nat m) (Some w') l))) v)).
  - match type of CUT with cut_at ?st _ = _ => pose proof (cut_le st s') as X end. rewrite CUT in X. cbn [snd length] in X. lia.
  - inversion ST; subst. match goal with H : Forall _ l |- _ => rewrite Forall_forall in H; apply nth_error_In in NE; exact (proj1 (H _ NE w eq_refl)) end.
Qed.
Lemma api_usable v : api_value v -> usable v.
Proof.
  intros [m cells T F]. apply (good_usable _ m); [apply T|reflexivity|]. constructor.
  induction F as [|d c l cells (H & _) F IH]; constructor; auto.
Qed.
