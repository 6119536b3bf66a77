(** Lemmas about assignment and extraction. *)
From Coq Require Import ZArith List Bool Lia ZifyBool ZifyNat Sorted Relation_Operators.
From Verif Require Import Base BaseProofs WireModel WireSpec TypeModel TypeSpec TypeProofs TypeNameProofs LayoutProofs ValueModel ValueSpec
  ValueTypeProofs MarkModel MarkSpec MarkProofs FieldProofs TextModel TextSpec TextProofs CopyModel CopySpec.
Import ListNotations.
Local Open Scope Z_scope.

(** ** Integers *)
Lemma int_codes c : int_code c <-> In c [tc_Int8; tc_Int16; tc_Int32; tc_Int64; tc_UInt8; tc_UInt16; tc_UInt32; tc_UInt64].
Proof.
  unfold int_code, int_width, uint_width. split.
  - intro H. cbn [In].
    repeat match goal with H : context [if ?b then _ else _] |- _ => destruct b eqn:?; [lia|] end. destruct H; congruence.
  - cbn [In]. intro H. repeat (destruct H as [<-|H]; [vm_compute; (left + right); discriminate|]). easy.
Qed.
Ltac codes H := apply int_codes in H; cbn [In] in H; repeat (destruct H as [<-|H]); [..|destruct H].

Lemma c_cast_eq c : int_code c -> exists n, (0 < n)%nat /\ type_bits c = 8 * Z.of_nat n /\
  ((int_width c = Some n /\ (forall z, c_cast c z = s_cast n z) /\ (forall z, in_type c z <-> signed_in n z)) \/
   (int_width c = None /\ uint_width c = Some n /\ (forall z, c_cast c z = u_cast n z) /\ (forall z, in_type c z <-> unsigned_in n z))).
Proof.
  intro H. codes H; [exists 1%nat|exists 2%nat|exists 4%nat|exists 8%nat|exists 1%nat|exists 2%nat|exists 4%nat|exists 8%nat];
    (split; [lia|]); (split; [reflexivity|]);
    try (left; split; [reflexivity|]; split; [reflexivity|reflexivity]);
    right; split; [reflexivity| |reflexivity| |reflexivity| |reflexivity|]; (split; [reflexivity|split; reflexivity]).
Qed.
Lemma c_cast_wraps c z : int_code c -> wraps_to c z (c_cast c z).
Proof.
  intro H. destruct (c_cast_eq c H) as (n & N & B & [(W & C & I)|(W0 & W & C & I)]); unfold wraps_to; rewrite I, C, B.
  - split; [apply s_cast_range; exact N|apply s_cast_mod].
  - split; [apply u_cast_range|]. unfold u_cast. exists (- (z / 2 ^ (8 * Z.of_nat n))). pose proof (pow8_pos n).
    rewrite Z.mod_eq by lia. lia.
Qed.
Lemma wraps_unique c z a b : int_code c -> wraps_to c z a -> wraps_to c z b -> a = b.
Proof.
  intros H (A & k & EA) (B & k' & EB). destruct (c_cast_eq c H) as (n & N & TB & [(W & C & I)|(W0 & W & C & I)]);
    rewrite I in A, B; rewrite TB in EA, EB; pose proof (pow8_pos n) as P.
  - unfold signed_in in *. assert (E : 2 ^ (8 * Z.of_nat n) = 2 * 2 ^ (8 * Z.of_nat n - 1)).
    { rewrite <- Z.pow_succ_r by lia. f_equal; lia. }
    rewrite E in *. set (h := 2 ^ (8 * Z.of_nat n - 1)) in *. assert (k = k') by nia. subst. lia.
  - unfold unsigned_in in *. set (h := 2 ^ (8 * Z.of_nat n)) in *. assert (k = k') by nia. subst. lia.
Qed.
Lemma c_cast_id c z : int_code c -> in_type c z -> c_cast c z = z.
Proof.
  intros H I. eapply wraps_unique; [exact H|apply c_cast_wraps, H|]. split; [exact I|]. exists 0. lia.
Qed.
(** narrowing after wrapping to something at least as wide *)
Lemma wraps_trans c c' z r s : int_code c -> int_code c' -> type_bits c <= type_bits c' -> wraps_to c' z r -> wraps_to c r s -> wraps_to c z s.
Proof.
  intros H H' L (_ & k & ->) (I & k' & ->). split; [exact I|].
  exists (k' + k * 2 ^ (type_bits c' - type_bits c)). destruct (c_cast_eq c H) as (n & N & B & _).
  replace (2 ^ type_bits c') with (2 ^ (type_bits c' - type_bits c) * 2 ^ type_bits c) by (rewrite <- Z.pow_add_r by lia; f_equal; lia). lia.
Qed.
Lemma type_bits_le c : int_code c -> type_bits c <= 64.
Proof. intro H. codes H; vm_compute; discriminate. Qed.
Lemma wide_wraps c c' z : int_code c -> int_code c' -> type_bits c <= type_bits c' -> c_cast c (c_cast c' z) = c_cast c z.
Proof.
  intros H H' L. eapply wraps_unique; [exact H| |apply c_cast_wraps, H].
  eapply wraps_trans; [exact H|exact H'|exact L|apply c_cast_wraps, H'|apply c_cast_wraps, H].
Qed.
Lemma int64_code : int_code tc_Int64. Proof. apply int_codes. cbn. tauto. Qed.
Lemma uint64_code : int_code tc_UInt64. Proof. apply int_codes. cbn. tauto. Qed.

(** ** Fields *)
Lemma put_nth i b s cells k : nth_error (put i b s cells) k =
  if (k =? i)%nat then match nth_error cells i with Some (b0, _) => Some (b0 || b, s) | None => None end else nth_error cells k.
Proof.
  unfold put. destruct (Nat.eqb_spec k i) as [->|N].
  - destruct (nth_error cells i) as [(b0, s0)|] eqn:E; [|exact E]. rewrite cell_set_nth, Nat.eqb_refl.
    assert (i < length cells)%nat by (apply nth_error_Some; congruence). now destruct (Nat.ltb_spec i (length cells)); [|lia].
  - destruct (nth_error cells i) as [(b0, s0)|] eqn:E; [|reflexivity]. rewrite cell_set_nth. now rewrite (proj2 (Nat.eqb_neq k i) N).
Qed.
Lemma put_length i b s cells : length (put i b s cells) = length cells.
Proof. unfold put. destruct (nth_error cells i) as [(b0, s0)|]; [apply cell_set_length|reflexivity]. Qed.
Lemma put_same i b s cells : nth_error cells i = Some (b, s) -> put i false s cells = cells.
Proof.
  unfold cell in *. intro E. apply nth_error_ext_eq. intro k. rewrite put_nth. unfold cell in *. rewrite E, orb_false_r. destruct (Nat.eqb_spec k i) as [->|]; congruence.
Qed.
Lemma put_set i b s cells : nth_error cells i = Some (b, s) -> forall s', field_set i s' cells (put i true s' cells).
Proof.
  intros E s'. split; [apply put_length|]. split.
  - rewrite put_nth, Nat.eqb_refl. unfold cell in *. rewrite E, orb_true_r. reflexivity.
  - intros k N. rewrite put_nth. now rewrite (proj2 (Nat.eqb_neq k i) N).
Qed.
Lemma copy_in_leaf fuel fp same nodes cells i p d b s : nth_error nodes i = Some d -> f_code d <> tc_Struct -> nth_error cells i = Some (b, s) ->
  copy_in (S fuel) fp same nodes cells i p =
  match copy_node fp same (copy_in fuel fp same) d s p with
  | (ROk, _, s') => (ROk, true, put i true s' cells)
  | (r, t, s') => (r, t, put i t s' cells)
  end.
Proof.
  intros E N C. cbn [copy_in]. unfold copy_at. rewrite E, (proj2 (Z.eqb_neq _ _) N). unfold copy_field. unfold cell in *. rewrite E, C. reflexivity.
Qed.
Lemma leaf_ok fuel fp same nodes cells i p c s' : field_of nodes cells i c -> c <> tc_Struct ->
  (forall d s s0, f_code d = c -> sto_init c = Some s0 -> same_kind s0 s ->
     exists t, copy_node fp same (copy_in fuel fp same) d s p = (ROk, t, s')) ->
  exists cells', copy_in (S fuel) fp same nodes cells i p = (ROk, true, cells') /\ field_set i s' cells cells'.
Proof.
  intros (d & b & s & s0 & E & EC & C & I & K) N H. destruct (H d s s0 EC I K) as (t & X).
  exists (put i true s' cells). split; [|eapply put_set; eauto].
  rewrite (copy_in_leaf fuel fp same nodes cells i p d b s E) by (rewrite ?EC; assumption). now rewrite X.
Qed.
Lemma leaf_fail fuel fp same nodes cells i p c r : field_of nodes cells i c -> c <> tc_Struct -> r <> ROk ->
  (forall d s s0, f_code d = c -> sto_init c = Some s0 -> same_kind s0 s ->
     copy_node fp same (copy_in fuel fp same) d s p = (r, false, s)) ->
  copy_in (S fuel) fp same nodes cells i p = (r, false, cells).
Proof.
  intros (d & b & s & s0 & E & EC & C & I & K) N R H.
  rewrite (copy_in_leaf fuel fp same nodes cells i p d b s E) by (rewrite ?EC; assumption). rewrite (H d s s0 EC I K).
  rewrite (put_same i b s cells C). destruct r; congruence.
Qed.
Lemma int_init c s0 s : int_code c -> sto_init c = Some s0 -> same_kind s0 s -> exists z, s = int_sto c z.
Proof.
  intros H I K. codes H; vm_compute in I; injection I as <-; destruct s; try easy; eexists; reflexivity.
Qed.
Lemma int_not_struct c : int_code c -> c <> tc_Struct.
Proof. intro H. codes H; discriminate. Qed.

(** what copyIn() does to an integer field, given the converted 64 bit number *)
Lemma copy_node_int fp same rec d z0 p : int_code (f_code d) ->
  copy_node fp same rec d (int_sto (f_code d) z0) p =
  done (cv_map (fun z => int_sto (f_code d) (c_cast (f_code d) z))
          (match int_width (f_code d) with Some _ => to_int fp p | None => to_uint fp p end)) (int_sto (f_code d) z0).
Proof.
  intro H. unfold int_sto. destruct (c_cast_eq _ H) as (n & N & B & [(W & _)|(W0 & W & _)]); rewrite ?W, ?W0; reflexivity.
Qed.

(** ** Arrays *)
Ltac intcode := apply int_codes; vm_compute; tauto.
Lemma cast_pair st dt s d : int_code st -> int_code dt -> cast_types st dt = Some (s, d) ->
  int_code s /\ int_code d /\ (type_bits dt <= type_bits d) /\ (type_bits dt <= type_bits s \/ s = st).
Proof.
  intros H K. codes H; codes K; intro X; vm_compute in X; injection X as <- <-;
    (split; [intcode|]); (split; [intcode|]); (split; [vm_compute; intro; discriminate|]); try (now right); try (left; vm_compute; intro; discriminate).
Qed.
Lemma cast_total st dt : int_code st -> int_code dt -> exists p, cast_types st dt = Some p.
Proof. intros H K. codes H; codes K; eexists; reflexivity. Qed.
Lemma cast_sizes st dt s d : int_code st -> int_code dt -> cast_types st dt = Some (s, d) ->
  Nat.eqb (elem_bytes s) (elem_bytes st) && Nat.eqb (elem_bytes d) (elem_bytes dt) = true.
Proof. intros H K. codes H; codes K; intro X; vm_compute in X; injection X as <- <-; reflexivity. Qed.
Lemma int_not_bool c : int_code c -> (c =? tc_Bool) = false.
Proof. intro H. codes H; reflexivity. Qed.
Lemma conv_int_wraps st dt z : int_code st -> int_code dt -> in_type st z -> conv_int st dt z = CV (c_cast dt z).
Proof.
  intros H K I. destruct (cast_total st dt H K) as ((s & d) & E). unfold conv_int. rewrite E.
  destruct (cast_pair st dt s d H K E) as (S1 & D1 & L & M). rewrite (cast_sizes st dt s d H K E). cbn [negb]. rewrite (int_not_bool s S1). cbn [andb]. f_equal.
  rewrite wide_wraps by assumption. destruct M as [M| ->]; [now apply wide_wraps|]. now rewrite (c_cast_id st z).
Qed.
Lemma is_int_code c : int_code c -> is_int c = true.
Proof. intro H. codes H; reflexivity. Qed.
Lemma map_cv_ok {A B} (f : A -> cv B) (R : A -> B -> Prop) l : Forall (fun x => exists y, f x = CV y /\ R x y) l ->
  exists l', map_cv f l = CV l' /\ Forall2 R l l'.
Proof.
  induction 1 as [|x l (y & E & Q) H (l' & E' & Q')]; [exists []; split; [reflexivity|constructor]|].
  exists (y :: l'). cbn [map_cv]. rewrite E, E'. split; [reflexivity|now constructor].
Qed.
Lemma map_cv_fail {A B} (f : A -> cv B) l pre x post e : l = pre ++ x :: post -> Forall (fun y => exists z, f y = CV z) pre -> f x = CFail e ->
  map_cv f l = CFail e.
Proof.
  intros ->. induction 1 as [|y pre (z & E) H IH]; intro X; cbn [app map_cv]; [now rewrite X|]. rewrite E, IH; auto.
Qed.
Lemma arr_field_ok fuel fp same nodes cells i c a a' : field_of nodes cells i c -> tc_isarray c = true -> tc_compound c = false ->
  copy_as fp c a = CV a' -> arr_nil a = false -> (match a with APod t l => c = t -> a' = APod c l | AStr l => c = tc_StringA -> a' = AStr l | _ => True end) ->
  exists cells', copy_in (S fuel) fp same nodes cells i (PArr a) = (ROk, true, cells') /\ field_set i (SArr a') cells cells'.
Proof.
  intros F A NC CA NN SH. apply (leaf_ok fuel fp same nodes cells i (PArr a) c); [exact F|intros ->; discriminate|].
  intros d s s0 EC I K. unfold sto_init in I. rewrite A in I. injection I as <-. destruct s; try easy. exists false.
  cbn [copy_node]. unfold copy_arr. rewrite EC, NC, NN. destruct a; try discriminate CA.
  - rewrite CA. destruct (Z.eqb_spec c t) as [->|]; [rewrite (SH eq_refl)|]; reflexivity.
  - rewrite CA. destruct (Z.eqb_spec c tc_StringA) as [->|]; [rewrite (SH eq_refl)|]; reflexivity.
Qed.
Lemma int_array_code c : int_code c -> tc_isarray (tc_arrayOf c) = true /\ tc_compound (tc_arrayOf c) = false /\ tc_scalarOf (tc_arrayOf c) = c /\
  tc_arrayOf c <> tc_StringA.
Proof. intro H. codes H; (split; [reflexivity|]); (split; [reflexivity|]); (split; [reflexivity|discriminate]). Qed.

(** ** assign() *)
Lemma sub_value_root v : f_size (first_node (v_nodes v)) = length (v_nodes v) -> length (v_cells v) = length (v_nodes v) -> v_nodes v <> [] ->
  sub_value v 0 = v.
Proof.
  destruct v as [n c]. cbn [v_nodes v_cells]. intros E L N. unfold sub_value. cbn [v_nodes v_cells skipn].
  destruct n as [|d n]; [easy|]. cbn [nth_error first_node hd] in *. unfold cell in *. rewrite E. rewrite firstn_all. rewrite <- L. now rewrite firstn_all.
Qed.
Lemma cells_ok_length n c : cells_ok (Val n c) -> length c = length n.
Proof. inversion 1 as [? ? F]. subst. clear H. induction F; cbn [length]; congruence. Qed.
Lemma cells_ok_node n c i d b s : cells_ok (Val n c) -> nth_error n i = Some d -> nth_error c i = Some (b, s) -> node_ok d s.
Proof.
  inversion 1 as [? ? F]. subst. clear H. revert i. induction F as [|x y n c Q F IH]; intros [|i] E C; try easy; cbn [nth_error] in *.
  - injection E as ->. injection C as ->. exact Q.
  - eauto.
Qed.
Lemma int_width_code c n : int_width c = Some n -> int_code c /\ (forall z, in_type c z <-> signed_in n z) /\ int_width c = Some n /\
  forall z, int_sto c z = SInt z.
Proof.
  intro W. assert (H : int_code c) by (left; congruence). split; [exact H|]. unfold in_type, int_sto. rewrite W. split; [reflexivity|auto].
Qed.
Lemma uint_width_code c n : uint_width c = Some n -> int_code c /\ int_width c = None /\ (forall z, in_type c z <-> unsigned_in n z) /\
  forall z, int_sto c z = SUInt z.
Proof.
  intro W. assert (H : int_code c) by (right; congruence). split; [exact H|]. unfold in_type, int_sto.
  destruct (c_cast_eq c H) as (k & _ & _ & [(W' & _)|(W' & W2 & _)]).
  - exfalso. codes H; vm_compute in W, W'; discriminate.
  - rewrite W', W. split; [reflexivity|]. split; [reflexivity|auto].
Qed.
Lemma pod_isarray c n : pod_width c = Some n -> tc_isarray c = true /\ tc_compound c = false.
Proof.
  unfold pod_width. intro H.
  repeat match type of H with context [if ?b then _ else _] => destruct b eqn:?; [|] end; try discriminate;
    assert (E : In c [tc_BoolA; tc_arrayOf tc_Int8; tc_arrayOf tc_UInt8; tc_arrayOf tc_Int16; tc_arrayOf tc_UInt16; tc_arrayOf tc_Int32;
      tc_arrayOf tc_UInt32; tc_arrayOf tc_Float32; tc_arrayOf tc_Int64; tc_arrayOf tc_UInt64; tc_arrayOf tc_Float64]) by (cbn [In]; lia);
    clear - E; cbn [In] in E; repeat (destruct E as [<-|E]; [split; reflexivity|]); easy.
Qed.
Lemma node_ok_kind d s s0 : node_ok d s -> sto_init (f_code d) = Some s0 -> same_kind s0 s.
Proof.
  assert (A : forall c, tc_isarray c = true -> sto_init c = Some s0 -> s0 = SArr ANull).
  { intros c H I. unfold sto_init in I. rewrite H in I. congruence. }
  intros OK I. inversion OK; subst;
    try (match goal with H : f_code d = _ |- _ => rewrite H in I end; vm_compute in I; injection I as <-; exact Logic.I).
  - destruct (int_width_code _ _ H) as (C & _ & _ & _). destruct (c_cast_eq _ C) as (k & _ & _ & [(W & _)|(W & _)]); [|congruence].
    clear - H I C. revert H I C. generalize (f_code d). intros c H I C. codes C; vm_compute in H; try discriminate; vm_compute in I; injection I as <-; exact Logic.I.
  - destruct (uint_width_code _ _ H) as (C & _ & _ & _).
    clear - H I C. revert H I C. generalize (f_code d). intros c H I C. codes C; vm_compute in H; try discriminate; vm_compute in I; injection I as <-; exact Logic.I.
  - destruct H as [H|H]; rewrite H in I; vm_compute in I; injection I as <-; exact Logic.I.
  - rewrite (A _ H I). exact Logic.I.
  - destruct (pod_isarray _ _ H) as (H' & _). rewrite (A _ H' I). exact Logic.I.
  - destruct H as [H|H]; rewrite H in I; vm_compute in I; injection I as <-; exact Logic.I.
Qed.
Lemma as_assigned_kind s0 s : same_kind s0 s -> same_kind s0 (as_assigned s).
Proof. destruct s0, s; try easy. destruct a0 as [|t [|]|[|]|[|]]; easy. Qed.

Lemma copy_node_same fp same rec d so ss s0 : exact_widening fp -> types_shared same ->
  f_code d <> tc_Struct -> f_code d <> tc_Union -> node_ok d ss -> sto_init (f_code d) = Some s0 -> same_kind s0 so ->
  exists t, copy_node fp same rec d so (src_of fp d ss) = (ROk, t, as_assigned ss).
Proof.
  intros FW TS NS NU OK I K. exists false. pose proof (node_ok_kind d ss s0 OK I) as KI.
  assert (AA : forall a, ss = SArr a -> exists old, so = SArr old).
  { intros a ->. destruct s0, so; try easy. eauto. }
  inversion OK; subst; try congruence.
  - rewrite H in *. vm_compute in I. injection I as <-. destruct so; try easy. cbn [src_of copy_node to_real cv_map done as_assigned].
    rewrite H. change (tc_Float32 =? tc_Float32) with true. cbv iota. rewrite (FW x H0). reflexivity.
  - rewrite H in *. vm_compute in I. injection I as <-. destruct so; try easy. cbn [src_of copy_node to_real cv_map done as_assigned].
    rewrite H. reflexivity.
  - destruct (int_width_code _ _ H) as (C & IT & _ & IS). destruct (int_init _ _ _ C I K) as (z0 & ->). cbn [src_of as_assigned].
    rewrite copy_node_int by exact C. rewrite H. cbn [to_int cv_map done]. rewrite wide_wraps by (exact C || apply int64_code || now apply type_bits_le).
    rewrite c_cast_id by (exact C || now apply IT). now rewrite IS.
  - destruct (uint_width_code _ _ H) as (C & W0 & IT & IS). destruct (int_init _ _ _ C I K) as (z0 & ->). cbn [src_of as_assigned].
    rewrite copy_node_int by exact C. rewrite W0. cbn [to_uint cv_map done]. rewrite wide_wraps by (exact C || apply uint64_code || now apply type_bits_le).
    rewrite c_cast_id by (exact C || now apply IT). now rewrite IS.
  - rewrite H in I. vm_compute in I. injection I as <-. destruct so; try easy.
  - rewrite H in I. vm_compute in I. injection I as <-. destruct so; try easy.
  - destruct H as [H|H]; [congruence|]. rewrite H in I. vm_compute in I. injection I as <-. destruct so; try easy.
    cbn [src_of copy_node as_assigned]. rewrite H. reflexivity.
  - rewrite H in I. vm_compute in I. injection I as <-. destruct so; try easy. cbn [src_of copy_node as_assigned]. rewrite H.
    change (tc_Any =? tc_Any) with true. cbv iota. rewrite sub_value_root; [reflexivity| | |].
    + rewrite H2. now apply good_size.
    + destruct v. now apply cells_ok_length.
    + rewrite H2. pose proof (flatten_length m). now destruct (flatten m).
  - destruct (AA _ eq_refl) as (old & ->). reflexivity.
  - destruct (AA _ eq_refl) as (old & ->). cbn [src_of copy_node]. unfold copy_arr. destruct l as [|x l]; [reflexivity|].
    cbn [arr_nil is_nil as_assigned]. rewrite Z.eqb_refl. reflexivity.
  - destruct (AA _ eq_refl) as (old & ->). cbn [src_of copy_node]. unfold copy_arr. destruct l as [|x l]; [reflexivity|].
    cbn [arr_nil is_nil as_assigned]. rewrite H. reflexivity.
  - destruct (AA _ eq_refl) as (old & ->). cbn [src_of copy_node]. unfold copy_arr. destruct l as [|x l]; [reflexivity|].
    cbn [arr_nil is_nil as_assigned].
    replace (tc_compound (f_code d)) with true by (destruct H as [-> | ->]; reflexivity).
    replace (existsb _ (x :: l)) with false; [now rewrite andb_false_r|]. symmetry. apply not_true_is_false. intro X.
    apply existsb_exists in X. destruct X as (o & O1 & O2). rewrite Forall_forall in H1. destruct o as [v|]; [|discriminate].
    destruct (H1 _ O1 v eq_refl) as (V & _). rewrite V, TS in O2. discriminate.
  - destruct (AA _ eq_refl) as (old & ->). cbn [src_of copy_node]. unfold copy_arr. destruct l as [|x l]; [reflexivity|].
    cbn [arr_nil is_nil as_assigned]. rewrite H. reflexivity.
Qed.

Lemma struct_at_nodes m i d : good_type m -> struct_at m i d ->
  good_type d /\ (exists nd, nth_error (flatten m) i = Some nd /\ f_code nd = tc_Struct /\ f_lookup nd = lookup_of d) /\
  (forall j, (1 <= j < nfields d)%nat -> nth_error (flatten m) (i + j) = nth_error (flatten d) j) /\
  (i + nfields d <= length (flatten m))%nat /\
  (forall k, is_inside (flatten m) i k <-> (i < k < i + nfields d)%nat).
Proof.
  intros G (S & [(-> & ->)|(path & F)]).
  - split; [exact G|]. split.
    + pose proof (flatten_length m) as L. pose proof (flatten_hd_code m) as C. unfold lookup_of.
      destruct (flatten m) as [|nd r]; [cbn in L; lia|]. exists nd. cbn in *. split; [reflexivity|]. split; [congruence|reflexivity].
    + split; [reflexivity|]. split; [rewrite <- nfields_flatten; lia|]. intro k. rewrite (root_inside_iff m k G). lia.
  - split; [eapply field_at_good; eauto|]. pose proof (field_at_located _ _ _ _ F) as L. split.
    + destruct (located_node m i d L) as (nd & E & C & LK & _). exists nd. split; [exact E|]. split; [congruence|exact LK].
    + split; [intros j J; now apply located_nodes|]. split.
      * rewrite <- nfields_flatten. exact (field_at_sub_bound _ _ _ _ F).
      * intro k. now apply (field_inside_iff m path).
Qed.
Lemma name_of_ok d nd j : good_type d -> m_code d = tc_Struct -> f_lookup nd = lookup_of d -> (1 <= j < nfields d)%nat ->
  exists n, name_of nd j = Some n /\ map_get n (lookup_of d) = Some j.
Proof.
  intros G S L J. unfold name_of. rewrite L, (lookup_length d G S). replace (j =? 0)%nat with false by lia.
  replace (nfields d - 1 <? j)%nat with false by lia. cbn [orb].
  destruct (proj2 (lookup_offs d j G S) J) as (p & P & E).
  destruct (find (fun q => (snd q =? j)%nat) (lookup_of d)) as [(n & k)|] eqn:Q.
  - apply find_some in Q. destruct Q as (Q1 & Q2). cbn in Q2. apply Nat.eqb_eq in Q2. subst k. exists n. split; [reflexivity|].
    apply map_get_In; [apply sorted_NoDup, lookup_sorted|exact Q1].
  - exfalso. pose proof (find_none _ _ Q p P) as X. cbn beta in X. rewrite E, Nat.eqb_refl in X. discriminate.
Qed.

(** the loop of the structure assignment *)
Section Fields.
  Variables (fp : fpu) (same : list fdesc -> list fdesc -> bool) (fuel : nat).
  Variables (m m' d : member) (si i : nat) (sc : list cell).
  Hypothesis FW : exact_widening fp.
  Hypothesis TS : types_shared same.
  Hypothesis G : good_type m.
  Hypothesis G' : good_type m'.
  Hypothesis SA : struct_at m si d.
  Hypothesis SA' : struct_at m' i d.
  Hypothesis NU : no_union d.
  Hypothesis OK : cells_ok (Val (flatten m) sc).

  Definition kinds (cells : list cell) : Prop :=
    length cells = length (flatten m') /\
    forall j nd, (1 <= j < nfields d)%nat -> nth_error (flatten d) j = Some nd ->
      exists b s s0, nth_error cells (i + j) = Some (b, s) /\ sto_init (f_code nd) = Some s0 /\ same_kind s0 s.

  Lemma copy_fields_ok : forall l cells t, NoDup l -> Forall (fun j => si < j < si + nfields d)%nat l -> kinds cells ->
    exists t' cells', copy_fields fp (copy_in (S fuel) fp same) (flatten m') cells i (flatten m) sc si l t = (ROk, t', cells') /\
      kinds cells' /\
      (forall k, (forall j, In j l -> k <> i + (j - si))%nat -> nth_error cells' k = nth_error cells k) /\
      (forall j nd vs ss vo so, In j l -> nth_error (flatten m) j = Some nd -> nth_error sc j = Some (vs, ss) ->
         nth_error cells (i + (j - si)) = Some (vo, so) ->
         nth_error cells' (i + (j - si)) = Some (true, if f_code nd =? tc_Struct then so else as_assigned ss)).
  Proof.
    destruct (struct_at_nodes m si d G SA) as (GD & (sd & E1 & C1 & L1) & N1 & B1 & I1).
    destruct (struct_at_nodes m' i d G' SA') as (_ & (dd & E2 & C2 & L2) & N2 & B2 & I2).
    destruct SA as (SD & _). clear SA SA'.
    pose proof (cells_ok_length _ _ OK) as SL.
    induction l as [|j l IH]; intros cells t ND A K.
    - exists t, cells. split; [reflexivity|]. split; [exact K|]. split; [reflexivity|easy].
    - inversion ND as [|? ? NI ND']. subst. inversion A as [|? ? J A']. subst.
      assert (exists q, j = (si + q)%nat /\ (1 <= q < nfields d)%nat) as (q & -> & Q) by (exists (j - si)%nat; lia).
      replace (si + q - si)%nat with q in * by lia.
      destruct (name_of_ok d sd q GD SD L1 Q) as (n & NM & MG).
      destruct (nth_error (flatten d) q) as [jd|] eqn:EJ; [|apply nth_error_None in EJ; rewrite <- nfields_flatten in EJ; lia].
      pose proof (N1 q Q) as EJ1. rewrite EJ in EJ1. pose proof (N2 q Q) as EJ2. rewrite EJ in EJ2.
      assert (exists vs ss, nth_error sc (si + q) = Some (vs, ss)) as (vs & ss & ES).
      { destruct (nth_error sc (si + q)) as [(vs, ss)|] eqn:X; [eauto|]. apply nth_error_None in X.
        unfold cell in *. rewrite SL in X. lia. }
      destruct K as (KL & K). destruct (K q jd Q EJ) as (vo & so & s0 & EO & IN & KD).
      assert (NODE : node_ok jd ss) by (eapply cells_ok_node; eauto).
      (* one step *)
      assert (STEP : exists cells1 t1,
        copy_fields fp (copy_in (S fuel) fp same) (flatten m') cells i (flatten m) sc si ((si + q)%nat :: l) t
        = copy_fields fp (copy_in (S fuel) fp same) (flatten m') cells1 i (flatten m) sc si l t1 /\
        length cells1 = length cells /\
        forall k, nth_error cells1 k = if (k =? i + q)%nat then Some (true, if f_code jd =? tc_Struct then so else as_assigned ss) else nth_error cells k).
      { cbn [copy_fields]. unfold cell in *. rewrite E1, EJ1, ES, E2. replace (si + q - si)%nat with q by lia. rewrite NM, L2, MG.
        destruct (Z.eqb_spec (f_code jd) tc_Struct) as [S|S].
        - exists (set_mark true cells (i + q)), true. split; [reflexivity|]. split; [apply set_mark_length|]. intro k. rewrite set_mark_nth.
          destruct (Nat.eqb_spec k (i + q)) as [->|]; [unfold cell in *; now rewrite EO|]. unfold cell in *; destruct (nth_error cells k) as [(?, ?)|]; reflexivity.
        - assert (U : f_code jd <> tc_Union) by (unfold no_union in NU; rewrite Forall_forall in NU; apply NU; eapply nth_error_In; eauto).
          destruct (copy_node_same fp same (copy_in fuel fp same) jd so ss s0 FW TS S U NODE IN KD) as (t1 & X).
          rewrite (copy_in_leaf fuel fp same (flatten m') cells (i + q) (src_of fp jd ss) jd vo so EJ2 S EO). rewrite X.
          exists (put (i + q) true (as_assigned ss) cells), (t || true). split; [reflexivity|]. split; [apply put_length|].
          intro k. rewrite put_nth. unfold cell in *. rewrite EO, orb_true_r. reflexivity. }
      destruct STEP as (cells1 & t1 & STEP & LEN1 & NTH1). rewrite STEP.
      destruct (IH cells1 t1 ND' A') as (t' & cells' & X & K' & SAME & SET).
      { split; [unfold cell in *; congruence|]. intros p nd P EP. destruct (K p nd P EP) as (b & s & s1 & Y1 & Y2 & Y3). rewrite NTH1.
        destruct (Nat.eqb_spec (i + p) (i + q)) as [PQ|]; [|eauto 6]. assert (p = q) by lia. subst p.
        rewrite EP in EJ. injection EJ as <-. unfold cell in *. rewrite EO in Y1. injection Y1 as <- <-.
        exists true, (if f_code nd =? tc_Struct then so else as_assigned ss), s1. split; [reflexivity|]. split; [exact Y2|].
        destruct (f_code nd =? tc_Struct); [exact Y3|]. apply as_assigned_kind. eapply node_ok_kind; eauto. }
      exists t', cells'. split; [exact X|]. split; [exact K'|]. split.
      + intros k H. rewrite SAME by (intros j IJ; apply H; now right). rewrite NTH1.
        assert (k <> i + q)%nat by (specialize (H (si + q)%nat (or_introl eq_refl)); lia). now rewrite (proj2 (Nat.eqb_neq k (i + q)) H0).
      + intros j nd vs' ss' vo' so' IJ EN EV ED. destruct IJ as [<-|IJ].
        * replace (si + q - si)%nat with q in * by lia. rewrite EJ1 in EN. injection EN as <-. unfold cell in *. rewrite ES in EV. injection EV as <- <-.
          rewrite EO in ED. injection ED as <- <-. rewrite SAME; [rewrite NTH1, Nat.eqb_refl; reflexivity|].
          intros j IJ E. rewrite Forall_forall in A'. specialize (A' j IJ). assert (j = si + q)%nat by lia. subst j. contradiction.
        * eapply SET; [exact IJ|exact EN|exact EV|]. rewrite NTH1. rewrite Forall_forall in A'. pose proof (A' j IJ).
          replace (i + (j - si) =? i + q)%nat with false; [exact ED|]. symmetry. apply Nat.eqb_neq. intro E. assert (j = si + q)%nat by lia. subst j. contradiction.
  Qed.
End Fields.
Lemma storage_kinds m' d i cells : storage_for m' (Val (flatten m') cells) ->
  (forall j, (1 <= j < nfields d)%nat -> nth_error (flatten m') (i + j) = nth_error (flatten d) j) -> kinds m' d i cells.
Proof.
  intros (_ & F) N. cbn [v_cells] in F. split.
  - clear N. induction F; cbn [length]; congruence.
  - intros j nd J E. rewrite <- (N j J) in E. clear - F E. revert F E. generalize (i + j)%nat; generalize (flatten m'); intros l k F. revert k.
    induction F as [|x y l c Q F IH]; intros [|k] E; try easy; cbn [nth_error] in *; [|now apply IH].
    injection E as ->. destruct Q as (s0 & I & K). destruct y as [b s]. exists b, s, s0. auto.
Qed.
Lemma ss_NoDup l : StronglySorted lt l -> NoDup l.
Proof.
  induction 1 as [|x l S IH F]; constructor; auto. intro I. rewrite Forall_forall in F. specialize (F x I). lia.
Qed.
