(** Theorems on the standard types (C81). *)
From Coq Require Import String.
From Coq Require Import ZArith List Bool Lia ZifyBool ZifyNat.
From Verif Require Import TextSpec Base BaseProofs WireModel TypeModel TypeSpec TypeProofs TypeNameProofs TypeProps LayoutProofs
  ValueModel ValueSpec ValueTypeProofs MarkModel MarkSpec MarkProofs FieldProofs CopyModel CopySpec CopyProofs CopyProps NtModel NtSpec NtProofs.
Import ListNotations.
Local Open Scope Z_scope.

(** ** NTScalar *)

Definition scalar_check (c s : Z) (d k a f : bool) : bool :=
  match nt_scalar c d k a f with
  | OK m => describable m && nice m && Nat.leb (levels m) 4
            && laid_out_b m (bs (if c =? s then "epics:nt/NTScalar:1.0"%string else "epics:nt/NTScalarArray:1.0"%string)) (scalar_fields c s d k a f)
  | _ => false
  end.
Definition both (P : bool -> bool) : bool := P true && P false.
Lemma both_all P b : both P = true -> P b = true.
Proof. unfold both. rewrite andb_true_iff. now destruct b. Qed.
Definition scalar_checks (s c : Z) : bool := both (fun d => both (fun k => both (fun a => both (fun f => scalar_check c s d k a f)))).
Lemma scalar_checked : forallb (fun s => scalar_checks s s && scalar_checks s (tc_arrayOf s)) primitives = true.
Proof. vm_compute. reflexivity. Qed.
Lemma scalar_check_ok c s d k a f : of_primitive c s -> scalar_check c s d k a f = true.
Proof.
  intros [I O]. pose proof scalar_checked as X. rewrite forallb_forall in X. specialize (X s I). apply andb_true_iff in X. destruct X as [X1 X2].
  assert (X : scalar_checks s c = true) by (destruct O; subst c; assumption). clear X1 X2. unfold scalar_checks in X.
  apply (both_all _ d) in X. cbv beta in X. apply (both_all _ k) in X. cbv beta in X. apply (both_all _ a) in X. cbv beta in X.
  apply (both_all _ f) in X. exact X.
Qed.

(** For every type code and every choice of options: a primitive or an array of one gives the
    standard layout, anything else is refused with an exception. *)
Theorem C81_scalar : forall c s display control valueAlarm form, of_primitive c s ->
  exists m, nt_scalar c display control valueAlarm form = OK m /\
    laid_out m (if c =? s then "epics:nt/NTScalar:1.0"%string else "epics:nt/NTScalarArray:1.0"%string)
             (scalar_fields c s display control valueAlarm form) /\ good_type m /\ (levels m <= 4)%nat.
Proof.
  intros c s d k a f P. pose proof (scalar_check_ok c s d k a f P) as X. unfold scalar_check in X.
  destruct (nt_scalar c d k a f) as [m| |]; [|discriminate|discriminate]. exists m. split; [reflexivity|].
  apply andb_true_iff in X. destruct X as [X1 X3]. apply andb_true_iff in X1. destruct X1 as [X1 X2]. apply Nat.leb_le in X2.
  split; [now apply laid_out_b_ok|]. split; [now apply nice_good|exact X2].
Qed.
Theorem C81_scalar_refused : forall c display control valueAlarm form, 0 <= c < 256 -> (forall s, ~ of_primitive c s) ->
  nt_scalar c display control valueAlarm form = Throws.
Proof.
  intros c d k a f R N. unfold nt_scalar.
  assert (G : forall c, 0 <= c < 256 -> negb (tc_valid c) || tc_compound c = true \/ In c (primitives ++ map tc_arrayOf primitives)).
  { apply (byte_cases (fun c => negb (tc_valid c) || tc_compound c = true \/ In c (primitives ++ map tc_arrayOf primitives))).
    apply Forall_forall. intros x I.
    assert (X : forallb (fun c => negb (tc_valid c) || tc_compound c || existsb (Z.eqb c) (primitives ++ map tc_arrayOf primitives)) (map Z.of_nat (seq 0 256)) = true) by (vm_compute; reflexivity).
    rewrite forallb_forall in X. specialize (X x I). apply orb_true_iff in X. destruct X as [X|X]; [now left|right].
    apply existsb_exists in X. destruct X as (y & J & E). apply Z.eqb_eq in E. now subst. }
  destruct (G c R) as [->|I]; [reflexivity|]. exfalso. apply in_app_iff in I. destruct I as [I|I].
  - apply (N c). split; auto.
  - apply in_map_iff in I. destruct I as (s & E & I). apply (N s). split; auto.
Qed.

(** ** NTEnum and NTNDArray *)
Theorem C81_enum : exists m, nt_enum = OK m /\ laid_out m "epics:nt/NTEnum:1.0" enum_fields /\ good_type m.
Proof.
  eexists. split; [vm_compute; reflexivity|]. split; [repeat split|]. apply nice_good. vm_compute. reflexivity.
Qed.
Theorem C81_ndarray : exists m, nt_ndarray = OK m /\ good_type m /\ (levels m <= 21)%nat /\
  m_code m = tc_Struct /\ m_id m = bs "epics:nt/NTNDArray:1.0" /\
  Forall (fun f => In f (fields_below [] m))
    ([FS "codec" tc_Struct "codec_t"; F "codec.name" tc_String; F "codec.parameters" tc_Any; F "value" tc_Union;
      F "compressedSize" tc_Int64; F "uncompressedSize" tc_Int64; F "uniqueId" tc_Int32;
      FS "dataTimeStamp" tc_Struct "time_t"; FS "dimension" tc_StructA "dimension_t"; F "dimension.size" tc_Int32;
      F "dimension.offset" tc_Int32; F "dimension.fullSize" tc_Int32; F "dimension.binning" tc_Int32; F "dimension.reverse" tc_Bool;
      FS "attribute" tc_StructA "epics:nt/NTAttribute:1.0"; F "attribute.name" tc_String; F "attribute.value" tc_Any;
      F "attribute.descriptor" tc_String; F "attribute.sourceType" tc_Int32; F "attribute.source" tc_String] ++ alarm_fields ++ time_fields).
Proof.
  eexists. split; [vm_compute; reflexivity|]. split; [apply nice_good; vm_compute; reflexivity|]. split; [vm_compute; lia|].
  split; [reflexivity|]. split; [reflexivity|].
  apply among_ok. vm_compute. reflexivity.
Qed.
(** Every choice for the pixels of an image should be an array.  The two floating point ones are a
    single number: an image of floats or doubles cannot be held. *)
Theorem C81_ndarray_float_refuted : exists m name c, nt_ndarray = OK m /\ In (bs "value." ++ bs name, c, []) (fields_below [] m) /\
  tc_isarray c = false.
Proof. eexists. exists "floatValue"%string, tc_Float32. split; [vm_compute; reflexivity|]. split; [|reflexivity].
  match goal with |- In ?f ?l => assert (X : Forall (fun x => In x l) [f]) by (apply among_ok; vm_compute; reflexivity) end.
  exact (Forall_inv X).
Qed.

(** ** NTTable *)
Definition usable_name (n : str) : Prop := n = [] \/ identifier n.
(** columns as a C program can ask for: codes are bytes, names C strings, sizes within the wire format *)
Definition c_request (r : request) : Prop := 0 <= r_code r < 256 /\ ~ In 0 (r_name r) /\ wire_str (r_name r) = true.

Lemma usable_no_dot n : usable_name n -> no_dot n.
Proof.
  intros [->|(c & r & -> & L & F)]; [intros []|]. intros [E|I].
  - subst c. unfold is_letter, dot in L. lia.
  - rewrite Forall_forall in F. specialize (F _ I). unfold is_letter, is_digit, dot in F. lia.
Qed.
Definition cols_of (l : list request) : list column :=
  map (fun r => {| c_code := tc_arrayOf (r_code r); c_name := r_name r; c_label := r_label r |}) l.
Definition table_type (cols : list column) : member :=
  Mem tc_Struct [] (bs "epics:nt/NTTable:1.0")
    [M tc_StringA "labels"; MS tc_Struct "value" "" (map (fun c => Mem (c_code c) (c_name c) [] []) cols);
     M tc_String "descriptor"; nt_as alarm_t "alarm"; nt_as time_t "timeStamp"].
Lemma array_of_column c : column_type c -> tc_valid (tc_arrayOf c) = true /\ 0 <= tc_arrayOf c < 256.
Proof.
  assert (X : forallb (fun c => tc_valid (tc_arrayOf c) && (0 <=? tc_arrayOf c) && (tc_arrayOf c <? 256)) (primitives ++ [tc_Struct; tc_Union; tc_Any]) = true) by (vm_compute; reflexivity).
  rewrite forallb_forall in X. intro I. specialize (X c I). rewrite !andb_true_iff in X. lia.
Qed.
Lemma table_built l : Forall c_request l -> Forall (fun r => column_type (r_code r)) l ->
  (member_built (table_type (cols_of l)) = true <-> Forall (fun r => usable_name (r_name r)) l).
Proof.
  intros R T. set (ms := map (fun c => Mem (c_code c) (c_name c) [] []) (cols_of l)).
  assert (E : member_built (table_type (cols_of l)) = member_built (MS tc_Struct "value" "" ms)).
  { unfold table_type. fold ms. set (V := MS tc_Struct "value" "" ms). cbn [member_built forallb]. fold V.
    change (member_built (M tc_StringA "labels")) with true. change (member_built (M tc_String "descriptor")) with true.
    change (member_built (nt_as alarm_t "alarm")) with true. change (member_built (nt_as time_t "timeStamp")) with true.
    rewrite !andb_true_r. cbn [andb]. reflexivity. }
  rewrite E. unfold MS. cbn [member_built]. unfold member_validate. cbn [m_name m_id m_code m_children].
  change (is_nil (bs "value") || name_validate (bs "value")) with true. change (node_validate None (bs "") tc_Struct) with true.
  cbn [andb]. rewrite andb_true_iff, !forallb_forall. unfold ms, cols_of. rewrite map_map. rewrite Forall_forall in *. split.
  - intros [_ H] r I. specialize (H (Mem (tc_arrayOf (r_code r)) (r_name r) [] [])).
    assert (J : In (Mem (tc_arrayOf (r_code r)) (r_name r) [] []) (map (fun x => Mem (tc_arrayOf (r_code x)) (r_name x) [] []) l)) by (apply in_map_iff; eauto).
    specialize (H J). cbn [member_built forallb] in H. unfold member_validate in H. cbn [m_name] in H. rewrite !andb_true_iff, orb_true_iff in H.
    destruct H as [[[[H|H] _] _] _]; [left; now destruct (r_name r)|right]. apply C45_names_partial; [apply (R r I)|exact H].
  - intro U. split; intros x J; apply in_map_iff in J; destruct J as (r & <- & I); destruct (array_of_column _ (T r I)) as [V _].
    + unfold node_validate. cbn [m_id m_code is_nil c_code c_name]. rewrite V. reflexivity.
    + cbn [member_built forallb]. unfold member_validate, node_validate. cbn [m_name m_id m_code m_children is_nil forallb c_code c_name]. rewrite V.
      cbn [orb andb]. rewrite !andb_true_r. apply orb_true_iff. destruct (U r I) as [->|H]; [now left|right].
      apply C45_names_partial; [apply (R r I)|exact H].
Qed.
Lemma table_fits l : Forall c_request l -> Forall (fun r => column_type (r_code r)) l -> zlen l <= 0xffffffff ->
  fits_wire (table_type (cols_of l)) = true.
Proof.
  intros R T Z. set (ms := map (fun c => Mem (c_code c) (c_name c) [] []) (cols_of l)).
  assert (E : fits_wire (table_type (cols_of l)) = fits_wire (MS tc_Struct "value" "" ms)).
  { unfold table_type. fold ms. set (V := MS tc_Struct "value" "" ms). cbn [fits_wire forallb]. fold V.
    change (fits_wire (M tc_StringA "labels")) with true. change (fits_wire (M tc_String "descriptor")) with true.
    change (fits_wire (nt_as alarm_t "alarm")) with true. change (fits_wire (nt_as time_t "timeStamp")) with true.
    rewrite !andb_true_r. cbn [andb]. reflexivity. }
  rewrite E. unfold MS. cbn [fits_wire].
  assert (ZM : zlen ms <=? 0xffffffff = true). { apply Z.leb_le. unfold ms, cols_of, zlen in *. now rewrite !map_length. }
  rewrite ZM. cbn [andb]. change ((0 <=? tc_Struct) && (tc_Struct <? 256) && wire_str (bs "value") && wire_str (bs "")) with true. cbn [andb].
  rewrite forallb_forall. unfold ms, cols_of. rewrite map_map. intros x J. apply in_map_iff in J. destruct J as (r & <- & I).
  rewrite Forall_forall in *. destruct (R r I) as (_ & _ & W). destruct (array_of_column _ (T r I)) as [_ B]. cbn [fits_wire c_code c_name forallb].
  rewrite W. assert (B1 : 0 <=? tc_arrayOf (r_code r) = true) by lia. assert (B2 : tc_arrayOf (r_code r) <? 256 = true) by lia.
  rewrite B1, B2. reflexivity.
Qed.
Lemma table_names l : Forall (fun r => usable_name (r_name r)) l -> all_names no_dot (table_type (cols_of l)).
Proof.
  intro U. assert (X : Forall (fun c : member => no_dot (m_name c) /\ all_names no_dot c)
    [M tc_StringA "labels"; M tc_String "descriptor"; nt_as alarm_t "alarm"; nt_as time_t "timeStamp"]).
  { repeat (apply Forall_cons; [split; [apply no_dot_b_ok; reflexivity|apply nice_ok; reflexivity]|]). constructor. }
  apply all_names_children. inversion X as [|? ? X1 X2]; subst. constructor; [exact X1|]. constructor; [|exact X2].
  split; [apply no_dot_b_ok; reflexivity|]. apply all_names_children. rewrite Forall_forall in *. unfold cols_of. rewrite map_map.
  intros x J. apply in_map_iff in J. destruct J as (r & <- & I). cbn [m_name c_name]. split; [now apply usable_no_dot, U|exact Logic.I].
Qed.
Lemma table_distinct l : distinct_struct_names (table_type (cols_of l)) <-> NoDup (map r_name l).
Proof.
  assert (X : Forall distinct_struct_names [M tc_StringA "labels"; M tc_String "descriptor"; nt_as alarm_t "alarm"; nt_as time_t "timeStamp"]).
  { repeat (apply Forall_cons; [apply nice_ok; reflexivity|]). constructor. }
  assert (EN : map m_name (map (fun c => Mem (c_code c) (c_name c) [] []) (cols_of l)) = map r_name l) by (unfold cols_of; rewrite !map_map; reflexivity).
  split.
  - intro H. apply distinct_children in H. destruct H as [_ H]. inversion H as [|? ? _ H2]; subst. inversion H2 as [|? ? H3 _]; subst.
    apply distinct_children in H3. destruct H3 as [H3 _]. rewrite EN in H3. apply H3. reflexivity.
  - intro N. apply distinct_children. split; [intros _; apply no_dup_b_ok; reflexivity|].
    inversion X as [|? ? X1 X2]; subst. constructor; [exact X1|]. constructor; [|exact X2]. apply distinct_children. split; [intros _; now rewrite EN|].
    unfold cols_of. rewrite map_map. apply Forall_forall. intros x J. apply in_map_iff in J. destruct J as (r & <- & _). apply distinct_children. split; [constructor|constructor].
Qed.
Lemma flat_map_leaf (f : column -> member) (g : column -> field) prefix l :
  (forall c, m_children (f c) = []) -> (forall c, (prefix ++ m_name (f c), m_code (f c), m_id (f c)) = g c) ->
  flat_map (fun c => (prefix ++ m_name c, m_code c, m_id c) :: fields_below (prefix ++ m_name c ++ bs ".") c) (map f l) = map g l.
Proof.
  intros H G. induction l as [|c l IH]; cbn [map flat_map]; [reflexivity|]. rewrite IH, G. specialize (H c). destruct (f c) as [c0 n0 i0 cs0]. cbn in H.
  subst cs0. reflexivity.
Qed.
Lemma table_layout l : laid_out (table_type (cols_of l)) "epics:nt/NTTable:1.0" (table_fields l).
Proof.
  split; [reflexivity|]. split; [reflexivity|]. unfold table_type, table_fields. set (ms := map (fun c => Mem (c_code c) (c_name c) [] []) (cols_of l)).
  change (fields_below [] (Mem tc_Struct [] (bs "epics:nt/NTTable:1.0")
    [M tc_StringA "labels"; MS tc_Struct "value" "" ms; M tc_String "descriptor"; nt_as alarm_t "alarm"; nt_as time_t "timeStamp"]))
  with ([F "labels" tc_StringA; F "value" tc_Struct] ++
        flat_map (fun c => (bs "value." ++ m_name c, m_code c, m_id c) :: fields_below (bs "value." ++ m_name c ++ bs ".") c) ms
        ++ [F "descriptor" tc_String] ++ alarm_fields ++ time_fields).
  f_equal. f_equal. unfold ms.
  rewrite (flat_map_leaf (fun c => Mem (c_code c) (c_name c) [] []) (fun c => (bs "value." ++ c_name c, c_code c, []))) by reflexivity.
  unfold cols_of. rewrite map_map. reflexivity.
Qed.

(** Any sequence of columns: [add_column] refuses an array or a code which is no type, otherwise
    accepts it.  Given accepted columns with different names which are C identifiers, the table type is
    the standard one with those columns, in order, as arrays. *)
Theorem C81_table : forall l, Forall c_request l -> zlen l <= 0xffffffff ->
  ((exists cols, add_columns l [] = Some cols) <-> Forall (fun r => column_type (r_code r)) l) /\
  forall cols, add_columns l [] = Some cols ->
    (Forall (fun r => usable_name (r_name r)) l -> NoDup (map r_name l) ->
       exists m, nt_table cols = OK m /\ laid_out m "epics:nt/NTTable:1.0" (table_fields l) /\ good_type m) /\
    (~ Forall (fun r => usable_name (r_name r)) l -> nt_table cols = Throws) /\
    (Forall (fun r => usable_name (r_name r)) l -> ~ NoDup (map r_name l) -> nt_table cols = Aborts).
Proof.
  intros l R Z. assert (RC : Forall (fun r : request => 0 <= r_code r < 256) l) by (eapply Forall_impl; [|exact R]; intros r H; apply H).
  destruct (add_columns_ok l [] RC) as [A1 A2].
  assert (D : Forall (fun r : request => column_type (r_code r)) l \/ ~ Forall (fun r : request => column_type (r_code r)) l).
  { destruct (Forall_dec (fun r : request => column_type (r_code r))) with (l := l) as [H|H]; [|now left|now right].
    intro r. unfold column_type. apply in_dec. apply Z.eq_dec. }
  split.
  - split; [|intro F; rewrite (A1 F); eauto]. intros (cols & E). destruct D as [D|D]; [exact D|]. rewrite (A2 D) in E. discriminate.
  - intros cols E. destruct D as [D|D]; [|rewrite (A2 D) in E; discriminate]. rewrite (A1 D) in E. cbn [app] in E. fold (cols_of l) in E.
    assert (cols = cols_of l) by congruence. subst cols. clear E.
    pose proof (table_built l R D) as TB. pose proof (table_fits l R D Z) as TF.
    assert (ND : nt_table (cols_of l) = match typedef_make (table_type (cols_of l)) with OK _ => OK (table_type (cols_of l)) | Throws => Throws | Aborts => Aborts end) by reflexivity.
    rewrite ND. split; [|split].
    + intros U N. destruct (make_ok (table_type (cols_of l))) as [K _]; [now apply TB|exact TF|now apply table_names|].
      destruct K as [K G]; [now apply table_distinct|]. rewrite K. eexists. split; [reflexivity|]. split; [apply table_layout|exact G].
    + intro U. unfold typedef_make. destruct (member_built (table_type (cols_of l))) eqn:B; [|reflexivity]. exfalso. now apply U, TB.
    + intros U N. destruct (make_ok (table_type (cols_of l))) as [_ K]; [now apply TB|exact TF|now apply table_names|].
      rewrite K; [reflexivity|]. now rewrite table_distinct.
Qed.
(** The last case is a program which asks for two columns of one name: the process is stopped. *)
Theorem C81_duplicate_column_refuted : exists l cols, Forall c_request l /\ add_columns l [] = Some cols /\ nt_table cols = Aborts.
Proof.
  exists [(tc_Int32, bs "a", None); (tc_String, bs "a", Some (bs "A"))]. eexists. split; [|split; [reflexivity|vm_compute; reflexivity]].
  constructor; [|constructor; [|constructor]]; (split; [split; vm_compute; [discriminate|reflexivity]|split; [intros [H|[]]; discriminate|reflexivity]]).
Qed.

(** create() makes a Value of that type in which only the labels are set: those asked for, in order,
    or the column's name where none was given. *)
Theorem C81_table_labels : forall fuel fp same l cols m, Forall c_request l -> zlen l <= 0xffffffff ->
  add_columns l [] = Some cols -> nt_table cols = OK m ->
  exists fresh cells i, nt_table_create (S fuel) fp same cols = OK (Val (flatten m) cells) /\
    Forall2 (fun d (x : cell) => fst x = false /\ initial d (snd x)) (flatten m) fresh /\
    field_at m [bs "labels"] i (Mem tc_StringA (bs "labels") [] []) /\
    field_set i (SArr (if is_nil l then ANull else AStr (map r_label l))) fresh cells.
Proof.
  intros fuel fp same l cols m R Z A E. destruct (C81_table l R Z) as [C1 C2].
  assert (F : Forall (fun r => column_type (r_code r)) l) by (apply C1; eauto).
  assert (RC : Forall (fun r : request => 0 <= r_code r < 256) l) by (eapply Forall_impl; [|exact R]; intros r H; apply H).
  destruct (add_columns_ok l [] RC) as [A1 _]. rewrite (A1 F) in A. cbn [app] in A. fold (cols_of l) in A.
  assert (cols = cols_of l) by congruence. subst cols. clear A A1. specialize (C2 (cols_of l) (proj1 (add_columns_ok l [] RC) F)).
  destruct C2 as (K1 & K2 & K3).
  assert (U : Forall (fun r => usable_name (r_name r)) l).
  { destruct (member_built (table_type (cols_of l))) eqn:B; [now apply table_built|].
    exfalso. rewrite K2 in E; [discriminate|]. intro U. apply table_built in U; auto. congruence. }
  assert (N : NoDup (map r_name l)).
  { destruct (ListDec.NoDup_dec (list_eq_dec Z.eq_dec) (map r_name l)) as [N|N]; [exact N|]. rewrite (K3 U N) in E. discriminate. }
  destruct (K1 U N) as (m' & E' & _ & G). assert (m' = m) by congruence. subst m'. clear E'.
  assert (EM : m = table_type (cols_of l)).
  { unfold nt_table, nt_def in E. fold (table_type (cols_of l)) in E. destruct (typedef_make (table_type (cols_of l))); try discriminate. congruence. }
  assert (FA : field_at m [bs "labels"] 1 (Mem tc_StringA (bs "labels") [] [])).
  { rewrite EM. exact (fa_child (table_type (cols_of l)) [] (M tc_StringA "labels") _ eq_refl eq_refl). }
  set (fresh := map (fun d => (false, init_sto d)) (flatten m)).
  assert (FO : field_of (flatten m) fresh 1 tc_StringA).
  { destruct (located_node m 1 _ (field_at_located _ _ _ _ FA)) as (nd & EN & EC & _). cbn [m_code] in EC.
    exists nd, false, (init_sto nd), (SArr ANull). split; [exact EN|]. split; [exact EC|]. split.
    - unfold fresh. now rewrite nth_error_map, EN.
    - split; [vm_compute; reflexivity|]. unfold init_sto. rewrite EC. exact Logic.I. }
  assert (LK : map_get (bs "labels") (f_lookup (first_node (flatten m))) = Some 1%nat).
  { destruct G as (_ & GD & GN). exact (proj1 (C18_lookup_table m [bs "labels"] 1 (Mem tc_StringA (bs "labels") [] []) ltac:(now rewrite EM) GD GN FA)). }
  unfold nt_table_create, nt_create. rewrite E, (new_value m G). fold fresh. unfold set_member. rewrite LK.
  assert (X : exists cells, copy_in (S fuel) fp same (flatten m) fresh 1 (PArr (AStr (map c_label (cols_of l)))) = (ROk, true, cells) /\
     field_set 1 (SArr (if is_nil l then ANull else AStr (map r_label l))) fresh cells).
  { unfold cols_of. rewrite map_map. cbn [c_label]. change (map (fun x => r_label x) l) with (map r_label l). destruct l as [|r l0].
    - cbn [is_nil map]. apply (C20_empty_array fuel fp same _ _ _ tc_StringA (AStr []) FO); reflexivity.
    - cbn [is_nil]. apply (leaf_ok fuel fp same _ _ _ _ tc_StringA); [exact FO|discriminate|].
      intros d s s0 EC I K. vm_compute in I. injection I as <-. destruct s; try easy. exists false.
      cbn [copy_node]. unfold copy_arr. rewrite EC. reflexivity. }
  destruct X as (cells & X & FS). rewrite X. exists fresh, cells, 1%nat. split; [reflexivity|]. split; [now apply fresh_cells|]. split; [exact FA|exact FS].
Qed.

(** ** NTURI *)
Definition good_arg (a : member) : Prop := member_built a = true /\ fits_wire a = true /\ no_dot (m_name a) /\ all_names no_dot a.
Definition uri_type (args : list member) : member :=
  Mem tc_Struct [] (bs "epics:nt/NTURI:1.0") [M tc_String "scheme"; M tc_String "authority"; M tc_String "path"; MS tc_Struct "query" "" args].
Lemma uri_built args : Forall good_arg args -> member_built (uri_type args) = true.
Proof.
  intro A. set (V := MS tc_Struct "query" "" args).
  assert (E : member_built (uri_type args) = member_built V).
  { unfold uri_type. fold V. cbn [member_built forallb]. fold V.
    change (member_built (M tc_String "scheme")) with true. change (member_built (M tc_String "authority")) with true. change (member_built (M tc_String "path")) with true.
    rewrite !andb_true_r. cbn [andb]. reflexivity. }
  rewrite E. unfold V, MS. cbn [member_built]. unfold member_validate. cbn [m_name m_id m_code m_children].
  change (is_nil (bs "query") || name_validate (bs "query")) with true. change (node_validate None (bs "") tc_Struct) with true.
  cbn [andb]. rewrite andb_true_iff, !forallb_forall. rewrite Forall_forall in A. split; intros a I; destruct (A a I) as (B & _); [|exact B].
  destruct a as [c n i cs]. cbn [member_built] in B. unfold member_validate in B. rewrite !andb_true_iff in B. cbn [m_name m_id m_code m_children] in *. destruct B as [[[_ B] _] _].
  unfold node_validate in *. rewrite !andb_true_iff in B. destruct B as [[B1 B2] _]. rewrite B1, B2. reflexivity.
Qed.
Lemma uri_fits args : Forall good_arg args -> zlen args <= 0xffffffff -> fits_wire (uri_type args) = true.
Proof.
  intros A Z. set (V := MS tc_Struct "query" "" args).
  assert (E : fits_wire (uri_type args) = fits_wire V).
  { unfold uri_type. fold V. cbn [fits_wire forallb]. fold V.
    change (fits_wire (M tc_String "scheme")) with true. change (fits_wire (M tc_String "authority")) with true. change (fits_wire (M tc_String "path")) with true.
    rewrite !andb_true_r. cbn [andb]. reflexivity. }
  rewrite E. unfold V, MS. cbn [fits_wire].
  assert (ZM : zlen args <=? 0xffffffff = true) by (apply Z.leb_le; exact Z).
  rewrite ZM. cbn [andb]. change ((0 <=? tc_Struct) && (tc_Struct <? 256) && wire_str (bs "query") && wire_str (bs "")) with true. cbn [andb].
  rewrite forallb_forall. rewrite Forall_forall in A. intros a I. apply (A a I).
Qed.
Lemma uri_names args : Forall good_arg args -> all_names no_dot (uri_type args).
Proof.
  intro A. assert (X : Forall (fun c : member => no_dot (m_name c) /\ all_names no_dot c) [M tc_String "scheme"; M tc_String "authority"; M tc_String "path"]).
  { repeat (apply Forall_cons; [split; [apply no_dot_b_ok; reflexivity|apply nice_ok; reflexivity]|]). constructor. }
  apply all_names_children. change (Forall (fun c : member => no_dot (m_name c) /\ all_names no_dot c) ([M tc_String "scheme"; M tc_String "authority"; M tc_String "path"] ++ [MS tc_Struct "query" "" args])).
  apply Forall_app. split; [exact X|]. constructor; [|constructor]. split; [apply no_dot_b_ok; reflexivity|]. apply all_names_children.
  eapply Forall_impl; [|exact A]. intros a (_ & _ & H). exact H.
Qed.
Lemma uri_distinct args : distinct_struct_names (uri_type args) <-> NoDup (map m_name args) /\ Forall distinct_struct_names args.
Proof.
  unfold uri_type. rewrite distinct_children. split.
  - intros [_ H]. do 3 (inversion H as [|? ? _ H']; subst; clear H; rename H' into H). inversion H as [|? ? H3 _]; subst.
    apply distinct_children in H3. destruct H3 as [H3 H4]. split; [now apply H3|exact H4].
  - intros [N D]. split; [intros _; apply no_dup_b_ok; reflexivity|].
    do 3 (apply Forall_cons; [apply nice_ok; reflexivity|]). constructor; [|constructor]. apply distinct_children. auto.
Qed.
(** For every list of arguments with names and types which can be sent: the standard layout with
    those arguments as the members of "query", if no structure among them has two members of one name. *)
Theorem C81_uri : forall args, Forall good_arg args -> zlen args <= 0xffffffff ->
  (NoDup (map m_name args) /\ Forall distinct_struct_names args ->
     exists m, nt_uri args = OK m /\ laid_out m "epics:nt/NTURI:1.0" (uri_fields args) /\ good_type m) /\
  (~ (NoDup (map m_name args) /\ Forall distinct_struct_names args) -> nt_uri args = Aborts).
Proof.
  intros args A Z. destruct (make_ok (uri_type args) (uri_built args A) (uri_fits args A Z) (uri_names args A)) as [K1 K2].
  rewrite uri_distinct in K1, K2. unfold nt_uri, nt_def. fold (uri_type args). cbv zeta. split.
  - intro D. destruct (K1 D) as [K G]. rewrite K. eexists. split; [reflexivity|]. split; [|exact G]. split; [reflexivity|]. split; [reflexivity|].
    unfold uri_fields.
    change (fields_below [] (uri_type args)) with
      ([F "scheme" tc_String; F "authority" tc_String; F "path" tc_String; F "query" tc_Struct]
       ++ fields_below (bs "query.") (Mem tc_Struct [] [] args) ++ []).
    now rewrite app_nil_r.
  - intro D. now rewrite (K2 D).
Qed.

Lemma stores_ok fuel fp same nodes cells i c p s : field_of nodes cells i c -> stores c p s ->
  exists cells', copy_in (S fuel) fp same nodes cells i p = (ROk, true, cells') /\ field_set i s cells cells'.
Proof.
  intros F S. destruct S as [s|b|x|c p z H P I].
  - apply (leaf_ok fuel fp same _ _ _ _ tc_String); [exact F|discriminate|]. intros d s1 s0 EC I K. vm_compute in I. injection I as <-. destruct s1; try easy. now exists false.
  - apply (leaf_ok fuel fp same _ _ _ _ tc_Bool); [exact F|discriminate|]. intros d s1 s0 EC I K. vm_compute in I. injection I as <-. destruct s1; try easy. now exists false.
  - apply (leaf_ok fuel fp same _ _ _ _ tc_Float64); [exact F|discriminate|]. intros d s1 s0 EC I K. vm_compute in I. injection I as <-. destruct s1; try easy. exists false.
    cbn [copy_node]. rewrite EC. reflexivity.
  - destruct (C19_integer_stored fuel fp same nodes cells i c p z H F P) as (cells' & r & X & W & Y).
    assert (r = z) by (eapply wraps_unique; [exact H|exact W|split; [exact I|exists 0; lia]]). subst r. eauto.
Qed.
Lemma field_of_other nodes cells cells' i j c s : field_set i s cells cells' -> j <> i -> field_of nodes cells j c -> field_of nodes cells' j c.
Proof.
  intros (_ & _ & O) N (d & b & s1 & s0 & E & EC & C & I & K). exists d, b, s1, s0. rewrite (O j N). auto 6.
Qed.
(** the assignments: [codes] of the fields at [at_] *)
Lemma assigns_ok fuel fp same nodes : forall at_ codes l vals cells,
  NoDup at_ -> Forall2 (fun i c => field_of nodes cells i c) at_ codes ->
  Forall2 (fun cp s => stores (fst cp) (snd cp) s) (combine codes l) vals ->
  ((length l <= length codes)%nat ->
   exists cells', uri_assign (S fuel) fp same nodes cells at_ l = OK cells' /\ length cells' = length cells /\
     (forall k i s, nth_error at_ k = Some i -> nth_error vals k = Some s -> nth_error cells' i = Some (true, s)) /\
     (forall j, (forall k, (k < length l)%nat -> nth_error at_ k <> Some j) -> nth_error cells' j = nth_error cells j)) /\
  ((length codes < length l)%nat -> uri_assign (S fuel) fp same nodes cells at_ l = Throws).
Proof.
  induction at_ as [|i at_ IH]; intros codes l vals cells ND F ST.
  - inversion F; subst. cbn [combine] in ST. inversion ST; subst. split.
    + intro L. destruct l; [|cbn in L; lia]. exists cells. cbn [uri_assign]. split; [reflexivity|]. split; [reflexivity|]. split; [|auto]. intros [|k] ? ? E; discriminate.
    + intro L. destruct l; [cbn in L; lia|]. reflexivity.
  - inversion F as [|? c ? codes' F1 F2]; subst. inversion ND as [|? ? N1 N2]; subst. destruct l as [|p l].
    + cbn [combine] in ST. inversion ST; subst. split; [|cbn; lia]. intros _. exists cells. cbn [uri_assign]. split; [reflexivity|]. split; [reflexivity|].
      split; [|auto]. intros [|k] ? ? _ E; discriminate.
    + cbn [combine] in ST. inversion ST as [|? s ? vals' S1 S2]; subst. cbn [fst snd] in S1.
      destruct (stores_ok fuel fp same nodes cells i c p s F1 S1) as (cells1 & X & Y). cbn [uri_assign]. rewrite X.
      assert (F2' : Forall2 (fun i c => field_of nodes cells1 i c) at_ codes').
      { clear - F2 N1 Y. induction F2 as [|j c' l1 l2 H HF IHF]; constructor.
        - eapply field_of_other; [exact Y| |exact H]. intros ->. apply N1. now left.
        - apply IHF. intro I. apply N1. now right. }
      destruct (IH codes' l vals' cells1 N2 F2' S2) as [IH1 IH2]. cbn [length]. split.
      * intro L. destruct (IH1 ltac:(lia)) as (cells' & E & LE & K1 & K2). exists cells'. split; [exact E|]. split; [destruct Y; congruence|]. split.
        -- intros [|k] j s' E1 E2; cbn [nth_error] in E1, E2; [|eauto]. injection E1 as <-. injection E2 as <-. rewrite K2; [apply Y|].
           intros k _ E3. apply N1. eapply nth_error_In; eauto.
        -- intros j H. rewrite K2.
           ++ destruct Y as (_ & _ & Y). apply Y. intros ->. apply (H 0%nat); [lia|reflexivity].
           ++ intros k L2 E3. apply (H (S k)); [lia|exact E3].
      * intro L. apply IH2. lia.
Qed.
Lemma iter_at cs : forall off, map snd (iter_from off cs) = map (fun k => (off + total_fields (firstn k cs))%nat) (seq 0 (length cs)).
Proof.
  induction cs as [|c cs IH]; intro off; cbn [iter_from map length seq]; [reflexivity|]. cbn [firstn total_fields fold_right snd]. f_equal; [lia|].
  rewrite IH, <- seq_shift, map_map. apply map_ext. intro k. cbn [firstn]. unfold total_fields. cbn [fold_right]. rewrite nfields_flatten. lia.
Qed.

(** what call() works on: the new value, and the places of the arguments in it *)
Lemma uri_setup fuel fp same args m l : nt_uri args = OK m -> good_type m ->
  let fresh := map (fun d => (false, init_sto d)) (flatten m) in
  exists at_ : list nat, NoDup at_ /\ Forall2 (fun i c => field_of (flatten m) fresh i c) at_ (map m_code args) /\
    (forall k i, nth_error at_ k = Some i <-> exists a, nth_error args k = Some a /\ i = (4 + (1 + total_fields (firstn k args)))%nat) /\
    (forall k a, nth_error args k = Some a -> field_at m [bs "query"; m_name a] (4 + (1 + total_fields (firstn k args))) a) /\
    uri_call fuel fp same args l = match uri_assign fuel fp same (flatten m) fresh at_ l with
    | OK cells' => OK (Val (flatten m) cells') | Throws => Throws | Aborts => Aborts end.
Proof.
  intros E G. cbv zeta.
  assert (EM : m = uri_type args).
  { unfold nt_uri, nt_def in E. fold (uri_type args) in E. destruct (typedef_make (uri_type args)); try discriminate. congruence. }
  set (Q := MS tc_Struct "query" "" args).
  assert (FQ : field_at m [bs "query"] 4 Q).
  { rewrite EM. exact (fa_child (uri_type args) [M tc_String "scheme"; M tc_String "authority"; M tc_String "path"] Q [] eq_refl eq_refl). }
  assert (FA : forall k a, nth_error args k = Some a -> field_at m [bs "query"; m_name a] (4 + (1 + total_fields (firstn k args))) a).
  { intros k a EK. apply (field_at_app m [bs "query"] 4 Q FQ [m_name a]); [reflexivity|].
    destruct (nth_error_split args k EK) as (l1 & l2 & EA & EL). replace (firstn k args) with l1.
    - exact (fa_child Q l1 a l2 eq_refl EA).
    - rewrite EA, <- EL, firstn_app, Nat.sub_diag, firstn_O, firstn_all, app_nil_r. reflexivity. }
  set (fresh := map (fun d => (false, init_sto d)) (flatten m)).
  set (at_ := ichildren (flatten m) 4).
  assert (AT : at_ = map (fun k => (4 + (1 + total_fields (firstn k args)))%nat) (seq 0 (length args))).
  { unfold at_, ichildren. destruct (located_node m 4 _ (field_at_located _ _ _ _ FQ)) as (nd & EN & EC & _ & EI & _). rewrite EN, EC.
    change (m_code Q =? tc_Struct) with true. cbv iota. rewrite EI. unfold Q, MS. rewrite flatten_eq. change (is_array_of_compound tc_Struct) with false. cbv iota.
    rewrite flatten_plain_eq. cbv zeta. change (tc_Struct =? tc_Struct) with true. cbv iota. cbn [hd f_iter]. change (base_of tc_Struct) with 1%nat.
    rewrite <- (map_map snd (fun x => (4 + x)%nat)), iter_at, map_map. reflexivity. }
  assert (ATK : forall k i, nth_error at_ k = Some i <-> exists a, nth_error args k = Some a /\ i = (4 + (1 + total_fields (firstn k args)))%nat).
  { intros k i. rewrite AT, nth_error_map. destruct (nth_error args k) as [a|] eqn:EK.
    - assert (LK : (k < length args)%nat) by (apply nth_error_Some; congruence). rewrite (nth_error_nth' _ 0%nat) by (rewrite seq_length; lia). rewrite seq_nth by lia. cbn [option_map Nat.add]. split.
      + intro H. injection H as <-. exists a. split; reflexivity.
      + intros (a' & _ & ->). reflexivity.
    - assert (LK : (length args <= k)%nat) by (now apply nth_error_None). replace (nth_error (seq 0 (length args)) k) with (@None nat) by (symmetry; apply nth_error_None; rewrite seq_length; lia).
      cbn [option_map]. split; [discriminate|]. intros (a & H & _). discriminate. }
  assert (ND : NoDup at_).
  { unfold at_, ichildren. destruct (located_node m 4 _ (field_at_located _ _ _ _ FQ)) as (nd & EN & _). rewrite EN. destruct (f_code nd =? tc_Struct); [|constructor].
    pose proof (flatten_iter_sorted m) as SI. rewrite Forall_forall in SI. specialize (SI nd (nth_error_In _ _ EN)).
    rewrite <- (map_map snd (fun x => (4 + x)%nat)). apply FinFun.Injective_map_NoDup; [intros x y H; lia|].
    clear - SI. induction SI as [|x l H IH F]; constructor; auto. intro I. rewrite Forall_forall in F. specialize (F x I). lia. }
  assert (FO : Forall2 (fun i c => field_of (flatten m) fresh i c) at_ (map m_code args)).
  { assert (LA : length at_ = length (map m_code args)) by (rewrite AT, !map_length, seq_length; reflexivity).
    assert (K : forall k i c, nth_error at_ k = Some i -> nth_error (map m_code args) k = Some c -> field_of (flatten m) fresh i c).
    { intros k i c E1 E2. apply ATK in E1. destruct E1 as (a & EK & ->). rewrite nth_error_map, EK in E2. cbn [option_map] in E2. injection E2 as <-.
      pose proof (FA k a EK) as FK. destruct (located_node m _ _ (field_at_located _ _ _ _ FK)) as (nd & EN & EC & _).
      destruct G as (GD & _). pose proof (nodes_init m GD) as NI. rewrite Forall_forall in NI. specialize (NI nd (nth_error_In _ _ EN)).
      exists nd, false, (init_sto nd), (init_sto nd). split; [exact EN|]. split; [exact EC|]. split; [unfold fresh; now rewrite nth_error_map, EN|].
      rewrite <- EC. split; [exact NI|]. now destruct (init_sto nd). }
    clearbody at_. clear - LA K. revert LA K. generalize (map m_code args). induction at_ as [|i at_ IH]; intros [|c cs] LA K; try discriminate; constructor.
    - apply (K 0%nat); reflexivity.
    - apply IH; [now injection LA|]. intros k. exact (K (S k)). }
  assert (LK : map_get (bs "query") (f_lookup (first_node (flatten m))) = Some 4%nat).
  { destruct G as (_ & GD & GN). exact (proj1 (C18_lookup_table m [bs "query"] 4 Q ltac:(now rewrite EM) GD GN FQ)). }
  assert (UC : uri_call fuel fp same args l = match uri_assign fuel fp same (flatten m) fresh at_ l with
    | OK cells' => OK (Val (flatten m) cells') | Throws => Throws | Aborts => Aborts end).
  { unfold uri_call, nt_create. rewrite E, (new_value m G). fold fresh. now rewrite LK. }
  exists at_. split; [exact ND|]. split; [exact FO|]. split; [exact ATK|]. split; [exact FA|]. exact UC.
Qed.

(** call(): the arguments are stored in the members of "query", in order, and nothing else is set;
    members for which there is no argument stay unset.  An argument too many is an exception. *)
Theorem C81_uri_call : forall fuel fp same args m l vals, nt_uri args = OK m -> good_type m ->
  Forall2 (fun ap s => stores (m_code (fst ap)) (snd ap) s) (combine args l) vals ->
  ((length l <= length args)%nat ->
   exists fresh cells, uri_call (S fuel) fp same args l = OK (Val (flatten m) cells) /\
     Forall2 (fun d (x : cell) => fst x = false /\ initial d (snd x)) (flatten m) fresh /\
     (forall k a s, nth_error args k = Some a -> nth_error vals k = Some s ->
        exists i, field_at m [bs "query"; m_name a] i a /\ nth_error cells i = Some (true, s)) /\
     (forall i, (forall k a, (k < length l)%nat -> nth_error args k = Some a -> ~ field_at m [bs "query"; m_name a] i a) ->
        nth_error cells i = nth_error fresh i)) /\
  ((length args < length l)%nat -> uri_call (S fuel) fp same args l = Throws).
Proof.
  intros fuel fp same args m l vals E G ST.
  destruct (uri_setup (S fuel) fp same args m l E G) as (at_ & ND & FO & ATK & FA & UC). set (fresh := map _ _) in *.
  assert (SC : Forall2 (fun cp s => stores (fst cp) (snd cp) s) (combine (map m_code args) l) vals).
  { clear - ST. revert l vals ST. induction args as [|a args IH]; intros l vals ST; cbn [combine map] in *; [inversion ST; constructor|].
    destruct l as [|p l]; [inversion ST; constructor|]. inversion ST; subst. constructor; [assumption|]. now apply IH. }
  destruct (assigns_ok fuel fp same (flatten m) at_ (map m_code args) l vals fresh ND FO SC) as [K1 K2]. rewrite map_length in K1, K2.
  rewrite UC. split.
  - intro L. destruct (K1 L) as (cells & EU & LE & KV & KO). rewrite EU. exists fresh, cells. split; [reflexivity|]. split; [now apply fresh_cells|]. split.
    + intros k a s EK EV. eexists. split; [exact (FA k a EK)|]. apply (KV k _ s); [|exact EV]. apply ATK. eauto.
    + intros i H. apply KO. intros k LK2 EK. apply ATK in EK. destruct EK as (a & EA & ->). apply (H k a LK2 EA). now apply FA.
  - intro L. now rewrite (K2 L).
Qed.

(** An integer argument given as text which is not a number: call() throws. *)
Lemma assigns_unfit fuel fp same nodes : forall at_ codes l vals c txt l2 cells,
  NoDup at_ -> Forall2 (fun i c => field_of nodes cells i c) at_ codes -> length vals = length l ->
  nth_error codes (length l) = Some c -> int_code c -> (~ exists z, denotes txt z) ->
  Forall2 (fun cp s => stores (fst cp) (snd cp) s) (combine codes l) vals ->
  uri_assign (S fuel) fp same nodes cells at_ (l ++ PStr txt :: l2) = Throws.
Proof.
  induction at_ as [|i at_ IH]; intros codes l vals c txt l2 cells ND F LV EC IC NZ ST.
  - inversion F; subst. destruct l; discriminate.
  - inversion F as [|? c1 ? codes' F1 F2]; subst. inversion ND as [|? ? N1 N2]; subst. destruct l as [|p l].
    + cbn [List.length nth_error] in EC. injection EC as ->. cbn [app uri_assign].
      assert (X : copy_in (S fuel) fp same nodes cells i (PStr txt) = (RNoConvert, false, cells)).
      { destruct (int_width c) as [n|] eqn:EW.
        - apply (C19_text_to_signed fuel fp same nodes cells i c n txt EW F1). intros z D. exfalso. eauto.
        - destruct (uint_width c) as [n|] eqn:EU; [|destruct IC; congruence].
          apply (C19_text_to_unsigned_partial fuel fp same nodes cells i c n txt EW EU F1). intros z D. exfalso. eauto. }
      now rewrite X.
    + cbn [combine] in ST. destruct vals as [|s vals]; [discriminate|]. inversion ST as [|? ? ? ? S1 S2]; subst. cbn [fst snd] in S1.
      destruct (stores_ok fuel fp same nodes cells i c1 p s F1 S1) as (cells1 & X & Y). cbn [app uri_assign]. rewrite X.
      assert (F2' : Forall2 (fun i c => field_of nodes cells1 i c) at_ codes').
      { clear - F2 N1 Y. induction F2 as [|j c' l1 l2 H HF IHF]; constructor.
        - eapply field_of_other; [exact Y| |exact H]. intros ->. apply N1. now left.
        - apply IHF. intro I. apply N1. now right. }
      apply (IH codes' l vals c txt l2 cells1); auto.
Qed.
Theorem C81_uri_call_unfit : forall fuel fp same args m l vals a txt l2, nt_uri args = OK m -> good_type m ->
  Forall2 (fun ap s => stores (m_code (fst ap)) (snd ap) s) (combine args l) vals -> length vals = length l ->
  nth_error args (length l) = Some a -> int_code (m_code a) -> (~ exists z, denotes txt z) ->
  uri_call (S fuel) fp same args (l ++ PStr txt :: l2) = Throws.
Proof.
  intros fuel fp same args m l vals a txt l2 E G ST LV EA IC NZ.
  destruct (uri_setup (S fuel) fp same args m (l ++ PStr txt :: l2) E G) as (at_ & ND & FO & _ & _ & UC).
  assert (SC : Forall2 (fun cp s => stores (fst cp) (snd cp) s) (combine (map m_code args) l) vals).
  { clear - ST. revert l vals ST. induction args as [|a args IH]; intros l vals ST; cbn [combine map] in *; [inversion ST; constructor|].
    destruct l as [|p l]; [inversion ST; constructor|]. inversion ST; subst. constructor; [assumption|]. now apply IH. }
  rewrite UC, (assigns_unfit fuel fp same (flatten m) at_ (map m_code args) l vals (m_code a) txt l2 _ ND FO LV); auto.
  now rewrite nth_error_map, EA.
Qed.

(** ** Examples *)
Example C81_ex_scalar : of_primitive (tc_arrayOf tc_Float64) tc_Float64 /\ of_primitive tc_String tc_String /\
  (forall s, ~ of_primitive tc_Any s) /\ 0 <= tc_Any < 256.
Proof.
  split; [split; [vm_compute; tauto|now right]|]. split; [split; [vm_compute; tauto|now left]|]. split; [|split; vm_compute; [discriminate|reflexivity]].
  intros s [I [<-|E]]; vm_compute in I.
  - repeat (destruct I as [I|I]; [discriminate|]). exact I.
  - repeat (destruct I as [<-|I]; [vm_compute in E; discriminate|]). exact I.
Qed.
Definition ex_columns : list request := [(tc_Int32, bs "x", None); (tc_String, bs "y_1", Some (bs "Why?"))].
Example C81_ex_table : Forall c_request ex_columns /\ zlen ex_columns <= 0xffffffff /\
  Forall (fun r => column_type (r_code r)) ex_columns /\ Forall (fun r => usable_name (r_name r)) ex_columns /\ NoDup (map r_name ex_columns) /\
  exists cols m, add_columns ex_columns [] = Some cols /\ nt_table cols = OK m.
Proof.
  assert (R : Forall c_request ex_columns).
  { constructor; [|constructor; [|constructor]]; (split; [split; vm_compute; [discriminate|reflexivity]|split; [intro H; vm_compute in H; intuition discriminate|reflexivity]]). }
  assert (U : Forall (fun r => usable_name (r_name r)) ex_columns).
  { constructor; [|constructor; [|constructor]]; right; apply C45_names_partial; try reflexivity; intro H; vm_compute in H; intuition discriminate. }
  split; [exact R|]. split; [vm_compute; discriminate|]. split; [repeat constructor; vm_compute; tauto|]. split; [exact U|]. split; [apply no_dup_b_ok; reflexivity|].
  eexists. eexists. split; [reflexivity|vm_compute; reflexivity].
Qed.
Definition ex_args : list member := [Mem tc_String (bs "host") [] []; Mem tc_Struct (bs "opt") [] [Mem tc_Bool (bs "b") [] []]; Mem tc_Int32 (bs "n") [] []].
Example C81_ex_uri : Forall good_arg ex_args /\ zlen ex_args <= 0xffffffff /\ NoDup (map m_name ex_args) /\ Forall distinct_struct_names ex_args /\
  Forall2 (fun ap s => stores (m_code (fst ap)) (snd ap) s) (combine ex_args [PStr (bs "here")]) [SStr (bs "here")] /\
  exists m, nt_uri ex_args = OK m /\ good_type m.
Proof.
  split.
  { constructor; [|constructor; [|constructor; [|constructor]]]; (split; [reflexivity|split; [reflexivity|split; [apply no_dot_b_ok; reflexivity|apply nice_ok; reflexivity]]]). }
  split; [vm_compute; discriminate|]. split; [apply no_dup_b_ok; reflexivity|].
  split; [repeat (apply Forall_cons; [apply nice_ok; reflexivity|]); constructor|]. split; [repeat constructor|].
  eexists. split; [vm_compute; reflexivity|]. apply nice_good. vm_compute. reflexivity.
Qed.

Print Assumptions C81_scalar.
Print Assumptions C81_scalar_refused.
Print Assumptions C81_enum.
Print Assumptions C81_ndarray.
Print Assumptions C81_ndarray_float_refuted.
Print Assumptions C81_table.
Print Assumptions C81_duplicate_column_refuted.
Print Assumptions C81_table_labels.
Print Assumptions C81_uri.
Print Assumptions C81_uri_call.
Print Assumptions C81_uri_call_unfit.
