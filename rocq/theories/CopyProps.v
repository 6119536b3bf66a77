(** Theorems on assignment and extraction: C19 (scalars), C20 (arrays), C21
    (assign and clone), C55 (delta cache).

    [fp] is the floating point of the platform, [same] tells whether two types
    are the same object; both are arbitrary unless a hypothesis restricts them.
    [fuel] is a bound on nesting; one is enough for a scalar. *)
From Coq Require Import String.
From Coq Require Import ZArith List Bool Lia ZifyBool ZifyNat Sorted.
From Verif Require Import Base BaseProofs WireModel WireSpec TypeModel TypeSpec TypeProofs TypeNameProofs LayoutProofs ValueModel ValueSpec
  ValueTypeProofs MarkModel MarkSpec MarkProofs FieldProofs TextModel TextSpec TextProofs CopyModel CopySpec CopyProofs.
Import ListNotations.
Local Open Scope Z_scope.

(** ** C19: scalars *)

(** Assigning an integer to an integer field stores it modulo the width of the
    field, marks the field, and changes nothing else. *)
Theorem C19_integer_stored : forall fuel fp same nodes cells i c p z,
  int_code c -> field_of nodes cells i c -> int_src p z ->
  exists cells' r, copy_in (S fuel) fp same nodes cells i p = (ROk, true, cells') /\
    wraps_to c z r /\ field_set i (int_sto c r) cells cells'.
Proof.
  intros fuel fp same nodes cells i c p z H F P.
  destruct (leaf_ok fuel fp same nodes cells i p c (int_sto c (c_cast c z)) F (int_not_struct c H)) as (cells' & X & Y).
  - intros d s s0 <- I K. destruct (int_init _ _ _ H I K) as (z0 & ->). exists false. rewrite copy_node_int by exact H.
    assert (L64 := type_bits_le _ H).
    destruct (int_width (f_code d)); destruct P as [(-> & _)|(-> & _)]; cbn [to_int to_uint cv_map done];
      rewrite wide_wraps by (exact H || apply int64_code || apply uint64_code || exact L64); reflexivity.
  - exists cells', (c_cast c z). split; [exact X|]. split; [now apply c_cast_wraps|exact Y].
Qed.

(** Reading an integer field as int64_t or uint64_t gives its value, modulo 2^64;
    so unchanged if the type asked for can hold it. *)
Theorem C19_integer_read : forall fuel fp v i d b c z,
  nth_error (v_nodes v) i = Some d -> f_code d = c -> nth_error (v_cells v) i = Some (b, int_sto c z) -> int_code c -> in_type c z ->
  (exists r, copy_out fuel fp v i WInt = CV (PInt r) /\ wraps_to tc_Int64 z r /\ (in_type tc_Int64 z -> r = z)) /\
  (exists r, copy_out fuel fp v i WUInt = CV (PUInt r) /\ wraps_to tc_UInt64 z r /\ (in_type tc_UInt64 z -> r = z)).
Proof.
  intros fuel fp v i d b c z E EC C H I.
  assert (X : forall w, copy_out fuel fp v i w = out_leaf fp (src_of fp d (int_sto c z)) w).
  { intro w. destruct fuel; cbn [copy_out]; rewrite E, C; unfold int_sto; now destruct (int_width c). }
  rewrite !X. assert (S : src_of fp d (int_sto c z) = PInt z \/ src_of fp d (int_sto c z) = PUInt z)
    by (unfold int_sto; destruct (int_width c); cbn; auto).
  split; [exists (c_cast tc_Int64 z)|exists (c_cast tc_UInt64 z)]; (split; [destruct S as [-> | ->]; reflexivity|]);
    (split; [apply c_cast_wraps; (apply int64_code || apply uint64_code)|]); intro T; apply c_cast_id; auto using int64_code, uint64_code.
Qed.

(** Write then read: an integer which fits the field comes back, if it also
    fits the type it is read as. *)
Theorem C19_write_read : forall fuel fp same nodes cells i c p z,
  int_code c -> field_of nodes cells i c -> int_src p z -> in_type c z ->
  exists cells', copy_in (S fuel) fp same nodes cells i p = (ROk, true, cells') /\
    (in_type tc_Int64 z -> copy_out fuel fp (Val nodes cells') i WInt = CV (PInt z)) /\
    (in_type tc_UInt64 z -> copy_out fuel fp (Val nodes cells') i WUInt = CV (PUInt z)).
Proof.
  intros fuel fp same nodes cells i c p z H F P T.
  destruct (C19_integer_stored fuel fp same nodes cells i c p z H F P) as (cells' & r & X & W & S).
  assert (r = z) by (eapply wraps_unique; [exact H|exact W|split; [exact T|exists 0; lia]]). subst r.
  exists cells'. split; [exact X|]. destruct F as (d & b & s & s0 & E & EC & _). destruct S as (_ & S & _).
  destruct (C19_integer_read fuel fp (Val nodes cells') i d true c z E EC S H T) as ((r1 & A1 & _ & B1) & (r2 & A2 & _ & B2)).
  split; intro Q; [rewrite (B1 Q) in A1; exact A1|rewrite (B2 Q) in A2; exact A2].
Qed.

(** Extracting an integer as text, or assigning it to a String field, gives its
    decimal text. *)
Theorem C19_integer_text : forall fuel fp same nodes cells i p z,
  int_src p z -> field_of nodes cells i tc_String ->
  exists cells' t, copy_in (S fuel) fp same nodes cells i p = (ROk, true, cells') /\
    decimal_text t z /\ field_set i (SStr t) cells cells'.
Proof.
  intros fuel fp same nodes cells i p z P F.
  destruct (leaf_ok fuel fp same nodes cells i p tc_String (SStr (print_int z)) F ltac:(discriminate)) as (cells' & X & Y).
  - intros d s s0 EC I K. vm_compute in I. injection I as <-. destruct s; try easy. exists false.
    destruct P as [(-> & _)|(-> & _)]; reflexivity.
  - exists cells', (print_int z). split; [exact X|]. split; [apply print_int_spec|exact Y].
Qed.
Theorem C19_integer_read_text : forall fuel fp v i d b c z,
  nth_error (v_nodes v) i = Some d -> nth_error (v_cells v) i = Some (b, int_sto c z) ->
  exists t, copy_out fuel fp v i WStr = CV (PStr t) /\ decimal_text t z.
Proof.
  intros fuel fp v i d b c z E C. exists (print_int z). split; [|apply print_int_spec].
  destruct fuel; cbn [copy_out]; rewrite E, C; unfold int_sto; now destruct (int_width c).
Qed.

(** Assigning text to a signed integer field: the number it denotes is stored
    if it is a 64 bit number, modulo the width of the field.  Any other text is
    refused and nothing changes. *)
Theorem C19_text_to_signed : forall fuel fp same nodes cells i c n s,
  int_width c = Some n -> field_of nodes cells i c ->
  (forall z, denotes s z -> in_type tc_Int64 z ->
     exists cells' r, copy_in (S fuel) fp same nodes cells i (PStr s) = (ROk, true, cells') /\
       wraps_to c z r /\ field_set i (SInt r) cells cells') /\
  ((forall z, denotes s z -> ~ in_type tc_Int64 z) ->
     copy_in (S fuel) fp same nodes cells i (PStr s) = (RNoConvert, false, cells)).
Proof.
  intros fuel fp same nodes cells i c n s W F. assert (H : int_code c) by (left; congruence).
  assert (IS : forall z, int_sto c z = SInt z) by (intro z; unfold int_sto; now rewrite W). split.
  - intros z D I. assert (PS : parse_i64 s = Some z) by (apply parse_i64_spec; split; [exact D|exact I]).
    destruct (leaf_ok fuel fp same nodes cells i (PStr s) c (SInt (c_cast c z)) F (int_not_struct c H)) as (cells' & X & Y).
    + intros d s1 s0 <- I0 K. destruct (int_init _ _ _ H I0 K) as (z0 & ->). exists false. rewrite copy_node_int by exact H.
      rewrite W. cbn [to_int]. rewrite PS. cbn [of_opt cv_map done]. now rewrite IS.
    + exists cells', (c_cast c z). split; [exact X|]. split; [now apply c_cast_wraps|exact Y].
  - intro N. apply (leaf_fail fuel fp same nodes cells i _ c); [exact F|now apply int_not_struct|discriminate|].
    intros d s1 s0 <- I0 K. destruct (int_init _ _ _ H I0 K) as (z0 & ->). rewrite copy_node_int by exact H. rewrite W. cbn [to_int].
    destruct (parse_i64 s) as [z|] eqn:PS; [|reflexivity]. apply parse_i64_spec in PS. destruct PS as (D & R). now apply N in D.
Qed.
(** For an unsigned field the text is read modulo 2^64 (see C44): the claim is
    only about texts of numbers of magnitude below 2^64. *)
Theorem C19_text_to_unsigned_partial : forall fuel fp same nodes cells i c n s,
  int_width c = None -> uint_width c = Some n -> field_of nodes cells i c ->
  (forall z, denotes s z -> - 2 ^ 64 < z < 2 ^ 64 ->
     exists cells' r, copy_in (S fuel) fp same nodes cells i (PStr s) = (ROk, true, cells') /\
       wraps_to c z r /\ field_set i (SUInt r) cells cells') /\
  ((forall z, denotes s z -> ~ (- 2 ^ 64 < z < 2 ^ 64)) ->
     copy_in (S fuel) fp same nodes cells i (PStr s) = (RNoConvert, false, cells)).
Proof.
  intros fuel fp same nodes cells i c n s W0 W F. assert (H : int_code c) by (right; congruence).
  assert (IS : forall z, int_sto c z = SUInt z) by (intro z; unfold int_sto; now rewrite W0). split.
  - intros z D I. assert (PS : parse_u64 s = Some (z mod 2 ^ 64)) by (apply parse_u64_spec; exists z; auto).
    destruct (leaf_ok fuel fp same nodes cells i (PStr s) c (SUInt (c_cast c z)) F (int_not_struct c H)) as (cells' & X & Y).
    + intros d s1 s0 <- I0 K. destruct (int_init _ _ _ H I0 K) as (z0 & ->). exists false. rewrite copy_node_int by exact H.
      rewrite W0. cbn [to_uint]. rewrite PS. cbn [of_opt cv_map done]. rewrite IS.
      change (z mod 2 ^ 64) with (c_cast tc_UInt64 z). rewrite wide_wraps by (exact H || apply uint64_code || now apply type_bits_le). reflexivity.
    + exists cells', (c_cast c z). split; [exact X|]. split; [now apply c_cast_wraps|exact Y].
  - intro N. apply (leaf_fail fuel fp same nodes cells i _ c); [exact F|now apply int_not_struct|discriminate|].
    intros d s1 s0 <- I0 K. destruct (int_init _ _ _ H I0 K) as (z0 & ->). rewrite copy_node_int by exact H. rewrite W0. cbn [to_uint].
    destruct (parse_u64 s) as [z|] eqn:PS; [|reflexivity]. apply parse_u64_spec in PS. destruct PS as (z' & D & R & _). now apply N in D.
Qed.

(** Bool: an integer is true when not zero; of texts only "true" and "false"
    are accepted; a bool assigned to an integer is 0 or 1, to a String its name. *)
Theorem C19_bool_field : forall fuel fp same nodes cells i, field_of nodes cells i tc_Bool ->
  (forall b, exists cells', copy_in (S fuel) fp same nodes cells i (PBool b) = (ROk, true, cells') /\ field_set i (SBool b) cells cells') /\
  (forall p z, int_src p z -> exists cells' b, copy_in (S fuel) fp same nodes cells i p = (ROk, true, cells') /\
     field_set i (SBool b) cells cells' /\ (b = true <-> z <> 0)) /\
  (forall b : bool, exists cells', copy_in (S fuel) fp same nodes cells i (PStr (bs (if b then "true"%string else "false"%string))) = (ROk, true, cells') /\
     field_set i (SBool b) cells cells') /\
  (forall s, s <> bs "true"%string -> s <> bs "false"%string ->
     copy_in (S fuel) fp same nodes cells i (PStr s) = (RNoConvert, false, cells)).
Proof.
  intros fuel fp same nodes cells i F.
  assert (G : forall p b, in_bool p = CV b -> p <> PNull -> exists cells', copy_in (S fuel) fp same nodes cells i p = (ROk, true, cells') /\ field_set i (SBool b) cells cells').
  { intros p b E _. apply (leaf_ok fuel fp same nodes cells i p tc_Bool (SBool b) F ltac:(discriminate)).
    intros d s s0 EC I K. vm_compute in I. injection I as <-. destruct s; try easy. exists false. cbn [copy_node]. now rewrite E. }
  split; [intro b; now apply G|]. split; [|split].
  - intros p z P. destruct (G p (negb (z =? 0))) as (cells' & X & Y).
    + destruct P as [(-> & _)|(-> & _)]; reflexivity.
    + destruct P as [(-> & _)|(-> & _)]; discriminate.
    + exists cells', (negb (z =? 0)). split; [exact X|]. split; [exact Y|]. lia.
  - intro b. apply G; [|discriminate]. destruct b; reflexivity.
  - intros s N1 N2. apply (leaf_fail fuel fp same nodes cells i _ tc_Bool RNoConvert F); [discriminate|discriminate|].
    intros d s1 s0 EC I K. vm_compute in I. injection I as <-. destruct s1; try easy. cbn [copy_node in_bool].
    destruct (parse_bool s) as [b1|] eqn:E; [|reflexivity]. exfalso. unfold parse_bool in E.
    destruct (str_eqb s text_true) eqn:E1; [apply str_eqb_eq in E1; now apply N1|].
    destruct (str_eqb s text_false) eqn:E2; [apply str_eqb_eq in E2; now apply N2|discriminate].
Qed.
Theorem C19_bool_source : forall fuel fp same nodes cells i c (b : bool),
  (int_code c -> field_of nodes cells i c -> exists cells', copy_in (S fuel) fp same nodes cells i (PBool b) = (ROk, true, cells') /\
     field_set i (int_sto c (if b then 1 else 0)) cells cells') /\
  (field_of nodes cells i tc_String -> exists cells', copy_in (S fuel) fp same nodes cells i (PBool b) = (ROk, true, cells') /\
     field_set i (SStr (bs (if b then "true"%string else "false"%string))) cells cells').
Proof.
  intros fuel fp same nodes cells i c b. split.
  - intros H F. apply (leaf_ok fuel fp same nodes cells i (PBool b) c); [exact F|now apply int_not_struct|].
    intros d s s0 <- I K. destruct (int_init _ _ _ H I K) as (z0 & ->). exists false. rewrite copy_node_int by exact H.
    assert (E : c_cast (f_code d) (bool_z b) = if b then 1 else 0).
    { apply int_codes in H. cbn [In] in H. destruct b; repeat (destruct H as [<-|H]; [vm_compute; reflexivity|]); easy. }
    destruct (int_width (f_code d)); cbn [to_int to_uint cv_map done]; now rewrite E.
  - intro F. apply (leaf_ok fuel fp same nodes cells i (PBool b) tc_String); [exact F|discriminate|].
    intros d s s0 EC I K. vm_compute in I. injection I as <-. destruct s; try easy. exists false. destruct b; reflexivity.
Qed.

(** Whatever is assigned to a scalar field, or to an array field whose elements
    are scalars: if it fails then nothing changed, not even a mark; if it
    succeeds then only this field changed, and it is marked. *)
Theorem C19_failure_harmless : forall fuel fp same nodes cells i c p r t cells',
  field_of nodes cells i c -> tc_compound c = false ->
  copy_in (S fuel) fp same nodes cells i p = (r, t, cells') ->
  (r <> ROk -> t = false /\ cells' = cells) /\ (r = ROk -> exists s, field_set i s cells cells').
Proof.
  intros fuel fp same nodes cells i c p r t cells' (d & b & s & s0 & E & EC & C & I & K) NC X.
  assert (NS : f_code d <> tc_Struct) by (rewrite EC; intros ->; discriminate).
  rewrite (copy_in_leaf fuel fp same nodes cells i p d b s E NS C) in X.
  assert (Q : forall rr tt ss, copy_node fp same (copy_in fuel fp same) d s p = (rr, tt, ss) -> rr <> ROk -> tt = false /\ ss = s).
  { intros rr tt ss H N.
    assert (DN : forall x, done x s = (rr, tt, ss) -> tt = false /\ ss = s).
    { intros [a|e] Y; cbn in Y; injection Y as <- <- <-; [easy|auto]. }
    destruct s; cbn [copy_node] in H.
    - injection H as <- <- <-; auto.
    - eapply DN; eauto.
    - eapply DN; eauto.
    - eapply DN; eauto.
    - eapply DN; eauto.
    - eapply DN; eauto.
    - exfalso. unfold sto_init in I. rewrite EC in *. unfold tc_compound in *. rewrite NC in I.
      repeat match type of I with context [if ?q then _ else _] => destruct q end; try discriminate; injection I as <-; easy.
    - destruct p; try (injection H as <- <- <-; auto; fail).
      unfold copy_arr in H. rewrite EC in H. rewrite NC in H.
      destruct (arr_nil a0); [injection H as <- <- <-; easy|].
      destruct a0; try (injection H as <- <- <-; auto; fail);
        repeat match type of H with
               | context [if ?q then _ else _] => destruct q
               | context [match ?q with CV _ => _ | CFail _ => _ end] => destruct q
               end; injection H as <- <- <-; easy. }
  destruct (copy_node fp same (copy_in fuel fp same) d s p) as ((rr, tt), ss) eqn:H.
  destruct rr; injection X as <- <- <-; (split; [intro N|intro N]); try congruence;
    try (destruct (Q _ _ _ eq_refl N) as (-> & ->); split; [reflexivity|eapply put_same; eauto]).
  exists ss. eapply put_set; eauto.
Qed.

(** An assignment which fails may still mark: when an array of structures is
    converted element by element, the elements mark the field they are for. *)
Theorem C19_failed_assignment_marks_refuted : exists fp same nodes cells p cells',
  copy_in 4 fp same nodes cells 0 p = (RNoConvert, true, cells') /\ marked_at cells 0 = false /\ marked_at cells' 0 = true.
Proof.
  pose (fp := Build_fpu (fun z => z) (fun z => z) (fun _ => None) (fun z => negb (z =? 0)) (fun z => z) (fun z => z) (fun _ => []) (fun _ => []) (fun _ => None)).
  pose (sa := flatten (Mem tc_StructA [] [] [Mem tc_Int32 [120] [] []; Mem tc_String [121] [] []])).
  pose (st := flatten (Mem tc_Struct [] [] [Mem tc_Int32 [120] [] []; Mem (tc_arrayOf tc_Int32) [121] [] []])).
  exists fp, (fun _ _ => false), sa, [(false, SArr ANull)],
    (PArr (AVals [Some (Val st [(false, SNull); (true, SInt 5); (true, SArr (APod (tc_arrayOf tc_Int32) [1]))])])), [(true, SArr ANull)].
  split; [vm_compute; reflexivity|]. split; reflexivity.
Qed.
(** Assigning a number which is not finite (or out of range) to an integer field
    is undefined behaviour, not a refusal. *)
Theorem C19_real_to_integer_refuted : forall fuel fp same nodes cells i c x,
  int_code c -> field_of nodes cells i c -> fp_trunc fp x = None ->
  exists cells', copy_in (S fuel) fp same nodes cells i (PReal x) = (RUB, false, cells').
Proof.
  intros fuel fp same nodes cells i c x H F N. exists cells.
  apply (leaf_fail fuel fp same nodes cells i _ c); [exact F|now apply int_not_struct|discriminate|].
  intros d s s0 <- I K. destruct (int_init _ _ _ H I K) as (z0 & ->). rewrite copy_node_int by exact H.
  destruct (int_width (f_code d)); cbn [to_int to_uint]; unfold real_to_int; rewrite N; reflexivity.
Qed.

(** ** C20: arrays *)

(** An integer array assigned to an integer array field: same length and order,
    each element converted modulo the width of the destination elements. *)
Theorem C20_integer_array : forall fuel fp same nodes cells i st dt l,
  int_code st -> int_code dt -> field_of nodes cells i (tc_arrayOf dt) -> Forall (in_type st) l -> l <> [] ->
  exists cells' l', copy_in (S fuel) fp same nodes cells i (PArr (APod (tc_arrayOf st) l)) = (ROk, true, cells') /\
    Forall2 (wraps_to dt) l l' /\ field_set i (SArr (APod (tc_arrayOf dt) l')) cells cells'.
Proof.
  intros fuel fp same nodes cells i st dt l HS HD F A NE.
  destruct (int_array_code dt HD) as (A1 & A2 & A3 & A4). destruct (int_array_code st HS) as (B1 & B2 & B3 & B4).
  destruct (map_cv_ok (conv_num fp st dt) (fun z r => wraps_to dt z r /\ r = c_cast dt z) l) as (l' & M & Q).
  { rewrite Forall_forall in *. intros z Z. exists (c_cast dt z). unfold conv_num. rewrite (is_int_code st HS), (is_int_code dt HD).
    split; [apply conv_int_wraps; auto|]. split; [now apply c_cast_wraps|reflexivity]. }
  destruct (arr_field_ok fuel fp same nodes cells i (tc_arrayOf dt) (APod (tc_arrayOf st) l) (APod (tc_arrayOf dt) l')) as (cells' & X & Y);
    [exact F|exact A1|exact A2| | | |].
  - unfold copy_as. rewrite (proj2 (Z.eqb_neq _ _) A4), A2, A3, B3, M. reflexivity.
  - destruct l; [easy|reflexivity].
  - intro E. f_equal. assert (dt = st) by (rewrite <- A3, <- B3, E; reflexivity). subst st.
    clear - Q A HD. induction Q as [|z r l l' (_ & ->) Q IH]; [reflexivity|]. inversion A; subst. f_equal; [now apply c_cast_id|auto].
  - exists cells', l'. split; [exact X|]. split; [|exact Y]. clear - Q. induction Q as [|z r l l' (W & _) Q IH]; constructor; auto.
Qed.
(** An array without elements leaves the field empty. *)
Theorem C20_empty_array : forall fuel fp same nodes cells i c a,
  field_of nodes cells i c -> tc_isarray c = true -> arr_nil a = true ->
  exists cells', copy_in (S fuel) fp same nodes cells i (PArr a) = (ROk, true, cells') /\ field_set i (SArr ANull) cells cells'.
Proof.
  intros fuel fp same nodes cells i c a F A N. apply (leaf_ok fuel fp same nodes cells i (PArr a) c); [exact F|intros ->; discriminate|].
  intros d s s0 EC I K. unfold sto_init in I. rewrite A in I. injection I as <-. destruct s; try easy. exists false.
  cbn [copy_node]. unfold copy_arr. rewrite N. reflexivity.
Qed.
(** Integers to text: the decimal text of each element. *)
Theorem C20_integer_to_text : forall fuel fp same nodes cells i st l,
  int_code st -> field_of nodes cells i tc_StringA -> l <> [] ->
  exists cells' l', copy_in (S fuel) fp same nodes cells i (PArr (APod (tc_arrayOf st) l)) = (ROk, true, cells') /\
    Forall2 (fun z t => decimal_text t z) l l' /\ field_set i (SArr (AStr l')) cells cells'.
Proof.
  intros fuel fp same nodes cells i st l HS F NE. destruct (int_array_code st HS) as (B1 & B2 & B3 & B4).
  destruct (map_cv_ok (num_text fp st) (fun z t => decimal_text t z) l) as (l' & M & Q).
  { rewrite Forall_forall. intros z _. exists (print_int z). unfold num_text. rewrite (int_not_bool st HS), (is_int_code st HS).
    split; [reflexivity|apply print_int_spec]. }
  destruct (arr_field_ok fuel fp same nodes cells i tc_StringA (APod (tc_arrayOf st) l) (AStr l')) as (cells' & X & Y);
    [exact F|reflexivity|reflexivity| | | |].
  - unfold copy_as. rewrite Z.eqb_refl, B3, M. reflexivity.
  - destruct l; [easy|reflexivity].
  - intro E. congruence.
  - eauto.
Qed.
(** Text to signed integers: all must be numbers (of 64 bits), else nothing
    changes. *)
Theorem C20_text_to_signed : forall fuel fp same nodes cells i dt n l,
  int_width dt = Some n -> field_of nodes cells i (tc_arrayOf dt) -> l <> [] ->
  (forall zs, Forall2 (fun t z => denotes t z /\ in_type tc_Int64 z) l zs ->
     exists cells' l', copy_in (S fuel) fp same nodes cells i (PArr (AStr l)) = (ROk, true, cells') /\
       Forall2 (wraps_to dt) zs l' /\ field_set i (SArr (APod (tc_arrayOf dt) l')) cells cells') /\
  (Exists (fun t => forall z, denotes t z -> ~ in_type tc_Int64 z) l ->
     copy_in (S fuel) fp same nodes cells i (PArr (AStr l)) = (RNoConvert, false, cells)).
Proof.
  intros fuel fp same nodes cells i dt n l W F NE. assert (HD : int_code dt) by (left; congruence).
  destruct (int_array_code dt HD) as (A1 & A2 & A3 & A4).
  assert (SG : int_signed dt = true).
  { clear - HD W. apply int_codes in HD. cbn [In] in HD. repeat (destruct HD as [<-|HD]; [try reflexivity; discriminate|]). easy. }
  assert (TN : forall t, text_num fp dt t = match parse_i64 t with Some z => CV (c_cast dt z) | None => CFail RNoConvert end).
  { intro t. unfold text_num. now rewrite (int_not_bool dt HD), (is_int_code dt HD), SG. }
  split.
  - intros zs Q. assert (M : map_cv (text_num fp dt) l = CV (map (c_cast dt) zs)).
    { clear - Q TN. induction Q as [|t z l zs (D & I) Q IH]; [reflexivity|]. cbn [map_cv map].
      rewrite TN, IH. rewrite (proj2 (parse_i64_spec t z)) by (split; [exact D|exact I]). reflexivity. }
    destruct (arr_field_ok fuel fp same nodes cells i (tc_arrayOf dt) (AStr l) (APod (tc_arrayOf dt) (map (c_cast dt) zs))) as (cells' & X & Y);
      [exact F|exact A1|exact A2| | | |].
    + unfold copy_as. rewrite (proj2 (Z.eqb_neq _ _) A4), A2, A3, M. reflexivity.
    + destruct l; [easy|reflexivity].
    + intro E. congruence.
    + exists cells', (map (c_cast dt) zs). split; [exact X|]. split; [|exact Y].
      clear - HD. induction zs; cbn; constructor; auto. now apply c_cast_wraps.
  - intro Q. apply (leaf_fail fuel fp same nodes cells i _ (tc_arrayOf dt)); [exact F|intros E; rewrite E in A2; discriminate|discriminate|].
    intros d s s0 EC I K. unfold sto_init in I. rewrite A1 in I. injection I as <-. destruct s; try easy.
    assert (M : map_cv (text_num fp dt) l = CFail RNoConvert).
    { clear - Q TN. induction Q as [t l N|t l Q IH]; cbn [map_cv]; rewrite TN.
      - destruct (parse_i64 t) as [z|] eqn:PS; [|reflexivity]. apply parse_i64_spec in PS. destruct PS as (D & R). now apply N in D.
      - rewrite IH. destruct (parse_i64 t); reflexivity. }
    cbn [copy_node]. unfold copy_arr. rewrite EC. replace (arr_nil (AStr l)) with false by (destruct l; [easy|reflexivity]).
    rewrite (proj2 (Z.eqb_neq _ _) A4). unfold copy_as. rewrite (proj2 (Z.eqb_neq _ _) A4), A2, A3, M. reflexivity.
Qed.
(** Bool to integer and integer to bool. *)
Theorem C20_bool_arrays : forall fuel fp same nodes cells i c l,
  int_code c -> l <> [] ->
  (field_of nodes cells i (tc_arrayOf c) -> Forall (fun z => z = 0 \/ z = 1) l ->
     exists cells', copy_in (S fuel) fp same nodes cells i (PArr (APod tc_BoolA l)) = (ROk, true, cells') /\
       field_set i (SArr (APod (tc_arrayOf c) l)) cells cells') /\
  (field_of nodes cells i tc_BoolA -> Forall (in_type c) l ->
     exists cells' l', copy_in (S fuel) fp same nodes cells i (PArr (APod (tc_arrayOf c) l)) = (ROk, true, cells') /\
       Forall2 (fun z b => b = 0 /\ z = 0 \/ b = 1 /\ z <> 0) l l' /\ field_set i (SArr (APod tc_BoolA l')) cells cells').
Proof.
  intros fuel fp same nodes cells i c l H NE. destruct (int_array_code c H) as (A1 & A2 & A3 & A4). split.
  - intros F B. destruct (map_cv_ok (conv_num fp tc_Bool c) eq l) as (l' & M & Q).
    { rewrite Forall_forall in *. intros z Z. exists z. split; [|reflexivity]. specialize (B z Z). clear - H B.
      apply int_codes in H. cbn [In] in H. repeat (destruct H as [<-|H]; [destruct B as [-> | ->]; reflexivity|]). easy. }
    assert (l' = l). { clear - Q. induction Q; congruence. } subst l'.
    destruct (arr_field_ok fuel fp same nodes cells i (tc_arrayOf c) (APod tc_BoolA l) (APod (tc_arrayOf c) l)) as (cells' & X & Y);
      [exact F|exact A1|exact A2| | | |].
    + unfold copy_as. rewrite (proj2 (Z.eqb_neq _ _) A4), A2, A3. change (tc_scalarOf tc_BoolA) with tc_Bool. rewrite M. reflexivity.
    + destruct l; [easy|reflexivity].
    + reflexivity.
    + eauto.
  - intros F B. destruct (map_cv_ok (conv_num fp c tc_Bool) (fun z b => b = 0 /\ z = 0 \/ b = 1 /\ z <> 0) l) as (l' & M & Q).
    { rewrite Forall_forall in *. intros z Z. exists (if z =? 0 then 0 else 1). split; [|destruct (Z.eqb_spec z 0); auto].
      specialize (B z Z). unfold conv_num. rewrite (is_int_code c H). change (is_int tc_Bool) with true. cbv iota.
      assert (E : cast_types c tc_Bool = Some (c, tc_Bool)) by (clear - H; apply int_codes in H; cbn [In] in H; repeat (destruct H as [<-|H]; [reflexivity|]); easy).
      unfold conv_int. rewrite E, !PeanoNat.Nat.eqb_refl, (int_not_bool c H). cbn [andb]. rewrite (c_cast_id c z H B). unfold c_cast. rewrite Z.eqb_refl. f_equal.
      destruct (z =? 0); reflexivity. }
    destruct (arr_field_ok fuel fp same nodes cells i tc_BoolA (APod (tc_arrayOf c) l) (APod tc_BoolA l')) as (cells' & X & Y);
      [exact F|reflexivity|reflexivity| | | |].
    + unfold copy_as. rewrite A3. change (tc_scalarOf tc_BoolA) with tc_Bool. rewrite M. reflexivity.
    + destruct l; [easy|reflexivity].
    + intro E. exfalso. clear - H E. apply int_codes in H. cbn [In] in H. repeat (destruct H as [<-|H]; [discriminate|]). easy.
    + eauto.
Qed.

(** ** C21: assign() and clone() *)

(** Assigning a structure without Union members to one of the same type, each
    a whole value or a structure inside one: exactly the marked fields, and those
    in marked sub structures, are copied and marked; [assigned] in CopySpec.v
    says so field by field. *)
Theorem C21_assign_partial : forall fuel fp same m si d sc m' i cells,
  exact_widening fp -> types_shared same ->
  value_of m (Val (flatten m) sc) -> struct_at m si d ->
  good_type m' -> storage_for m' (Val (flatten m') cells) -> struct_at m' i d -> no_union d ->
  exists t cells', assign (S (S fuel)) fp same (flatten m') cells i (Val (flatten m) sc) si = (ROk, t, cells') /\
    assigned (flatten m) sc si d i cells cells'.
Proof.
  intros fuel fp same m si d sc m' i cells FW TS (G & _ & OK) SA G' ST SA' NU.
  destruct (struct_at_nodes m si d G SA) as (GD & (sd & E1 & C1 & L1) & N1 & B1 & I1).
  destruct (struct_at_nodes m' i d G' SA') as (_ & (dd & E2 & C2 & L2) & N2 & B2 & I2).
  pose proof (cells_ok_length _ _ OK) as SL. pose proof (storage_kinds m' d i cells ST N2) as K.
  assert (STG : storage m (flatten m) sc) by (split; [exact G|]; split; [reflexivity|exact SL]).
  assert (P1 : (1 <= nfields d)%nat) by apply nfields_pos.
  assert (exists vs ss, nth_error sc si = Some (vs, ss)) as (vs & ss & ES).
  { destruct (nth_error sc si) as [(vs, ss)|] eqn:X; [eauto|]. apply nth_error_None in X. unfold cell in *. rewrite SL in X. lia. }
  unfold assign. cbn [v_nodes v_cells]. unfold cell in *. rewrite E2, E1, ES. rewrite C2. change (tc_compound tc_Struct) with true. cbv iota.
  change (copy_in (S (S fuel)) fp same) with (copy_at fp same (copy_in (S fuel) fp same)).
  unfold copy_at. rewrite E2, C2, E1, C1. change (tc_Struct =? tc_Struct) with true. cbv iota.
  (* marked fields *)
  assert (IM : exists l, imarked (flatten m) sc si = Some l /\ StronglySorted lt l /\ forall j, In j l <-> carried (flatten m) sc si j).
  { pose proof (storage_lay _ _ _ STG) as L. pose proof (struct_lookup_size m si sd (proj1 G) E1 C1) as SZ.
    unfold imarked. rewrite E1. replace (f_code sd =? tc_Struct) with true by lia.
    set (n := List.length (f_lookup sd)) in *.
    destruct (imarked_loop_ok _ sc si n sd L E1 SZ (Datatypes.S n) 0 0) as (r & H1 & H2 & H3); [lia|lia|split; [lia|lia]|].
    exists r. split; [exact H1|]. split; [exact H2|]. intro j. rewrite H3. unfold carried. split.
    - intros (q & -> & Q & X). split; [apply (inside_iff _ si _ sd L E1); lia|]. eapply cover_iff; eauto. lia.
    - intros (I & X). apply (inside_iff _ si j sd L E1) in I. exists (j - si - 1)%nat. split; [lia|]. split; [lia|].
      apply (cover_iff _ sc si n sd L E1 SZ); [lia|]. replace (si + 1 + (j - si - 1))%nat with j by lia. exact X. }
  destruct IM as (l & IM & SO & IN). rewrite IM.
  destruct (copy_fields_ok fp same fuel m m' d si i sc FW TS G G' SA SA' NU OK l cells false) as (t & cells1 & X & K1 & SAME & SET).
  { now apply ss_NoDup. }
  { rewrite Forall_forall. intros j J. apply IN in J. destruct J as (J & _). now apply I1. }
  { exact K. }
  rewrite X.
  destruct (is_marked_ok (flatten m) sc si true false) as (b & MK & MB).
  { eapply storage_lay; eauto. }
  { lia. }
  rewrite MK.
  assert (RES : exists t' cells', match b with true => (ROk, true, set_mark true cells1 i) | false => (ROk, t, cells1) end = (ROk, t', cells') /\
    List.length cells' = List.length cells1 /\ forall k, nth_error cells' k = match nth_error cells1 k with Some (v, s) => Some (if (k =? i)%nat then v || b else v, s) | None => None end).
  { destruct b.
    - exists true, (set_mark true cells1 i). split; [reflexivity|]. split; [apply set_mark_length|]. intro k. rewrite set_mark_nth.
      unfold cell in *. destruct (nth_error cells1 k) as [(v, s)|]; [|reflexivity]. now rewrite orb_true_r.
    - exists t, cells1. split; [reflexivity|]. split; [reflexivity|]. intro k. unfold cell in *. destruct (nth_error cells1 k) as [(v, s)|]; [|reflexivity].
      rewrite orb_false_r. now destruct (k =? i)%nat. }
  destruct RES as (t' & cells' & -> & LEN & NTH). exists t', cells'. split; [reflexivity|].
  assert (FREE : forall k, (k <= i \/ i + nfields d <= k)%nat -> nth_error cells1 k = nth_error cells k).
  { intros k H. apply SAME. intros j J. apply IN in J. destruct J as (J & _). apply I1 in J. lia. }
  destruct K as (KL & K). destruct K1 as (KL1 & K1). split; [unfold cell in *; congruence|]. split; [|split].
  - intros k H. rewrite NTH, FREE by lia. replace (k =? i)%nat with false by lia. unfold cell in *. now destruct (nth_error cells k) as [(?, ?)|].
  - intros b0 s0 E. exists (b0 || b). rewrite NTH, FREE by lia. unfold cell in *. rewrite E, Nat.eqb_refl. split; [reflexivity|].
    rewrite orb_true_iff, MB. intuition discriminate.
  - intros j nd vs' ss' vo so J EN EV EO. rewrite NTH.
    replace (i + j =? i)%nat with false by lia.
    assert (CJ : In (si + j)%nat l \/ ~ In (si + j)%nat l) by (destruct (in_dec Nat.eq_dec (si + j)%nat l); auto).
    destruct CJ as [C|C].
    + pose proof (SET (si + j)%nat nd vs' ss' vo so C EN EV) as Y. replace (si + j - si)%nat with j in Y by lia. unfold cell in *. rewrite (Y EO).
      eexists _, _. split; [reflexivity|]. apply IN in C. destruct (f_code nd =? tc_Struct); [split; [reflexivity|tauto]|]. split; [auto|tauto].
    + rewrite SAME by (intros j' J' Q; pose proof J' as J2; apply IN in J2; destruct J2 as (J2 & _); apply I1 in J2; assert (j' = si + j)%nat by lia; subst; contradiction).
      unfold cell in *. rewrite EO. eexists _, _. split; [reflexivity|]. rewrite IN in C. destruct (f_code nd =? tc_Struct); [split; [reflexivity|tauto]|]. split; [tauto|auto].
Qed.

(** clone() of such a structure: a new value with the marked fields of the
    original, all others as new. *)
Theorem C21_clone_partial : forall fuel fp same m sc,
  exact_widening fp -> types_shared same -> value_of m (Val (flatten m) sc) -> m_code m = tc_Struct -> no_union m ->
  exists new c, value_new (flatten m) = DOK (Val (flatten m) new) /\
    Forall2 (fun d x => fst x = false /\ initial d (snd x)) (flatten m) new /\
    clone (S (S fuel)) fp same (Val (flatten m) sc) = (ROk, Some (Val (flatten m) c)) /\
    assigned (flatten m) sc 0 m 0 new c.
Proof.
  intros fuel fp same m sc FW TS V S NU. pose proof V as (G & _ & OK). pose proof (good_size m G) as SZ. destruct G as (D & _). 
  destruct (value_new_spec m (flatten m) D) as (VN & _); [reflexivity|]. specialize (VN SZ).
  set (new := map (fun d => (false, init_sto d)) (flatten m)) in *.
  assert (F2 : Forall2 (fun d (x : cell) => fst x = false /\ initial d (snd x)) (flatten m) new).
  { pose proof (nodes_init m D) as NI. unfold new. clear - NI. induction NI; cbn; constructor; auto. }
  assert (ST : storage_for m (Val (flatten m) new)).
  { split; [reflexivity|]. cbn [v_cells]. clear - F2. induction F2 as [|d x l c (A & B) F IH]; constructor; auto.
    exists (snd x). split; [exact B|]. now destruct (snd x). }
  assert (SA : struct_at m 0 m) by (split; [exact S|left; auto]).
  destruct (C21_assign_partial fuel fp same m 0 m sc m 0 new FW TS V SA (proj1 V) ST SA NU) as (t & c & X & Y).
  exists new, c. split; [exact VN|]. split; [exact F2|]. split; [|exact Y].
  unfold clone. cbn [v_nodes]. rewrite VN. unfold cell in *. rewrite X. reflexivity.
Qed.

(** Some floating point for examples, which do not use it. *)
Definition no_fpu : fpu :=
  Build_fpu (fun z => z) (fun z => z) (fun _ => None) (fun z => negb (z =? 0)) (fun z => z) (fun z => z) (fun _ => []) (fun _ => []) (fun _ => None).
Definition cp_union : member :=
  Mem tc_Struct [] [] [Mem tc_Union (bs "u"%string) [] [Mem tc_Int32 (bs "a"%string) [] []; Mem tc_Int32 (bs "b"%string) [] []]].
Definition cp_union_v (sel : option nat) : value :=
  Val (flatten cp_union) [(false, SNull); (true, SSel (option_map (fun k => (k, Val [fd_new tc_Int32] [(true, SInt 7)])) sel))].

(** With a Union, clone() (and assign()) may select another member: the first
    one of the same type. *)
Theorem C21_union_selection_refuted : exists v c, value_of cp_union v /\
  (exists b w, nth_error (v_cells v) 1 = Some (b, SSel (Some (1%nat, w)))) /\
  (forall fp same fuel, clone (5 + fuel) fp same v = (ROk, Some c)) /\
  exists b w, nth_error (v_cells c) 1 = Some (b, SSel (Some (0%nat, w))).
Proof.
  exists (cp_union_v (Some 1%nat)), (cp_union_v (Some 0%nat)). split; [|split; [|split]].
  - split; [|split; [reflexivity|]].
    + split; [reflexivity|]. split.
      * cbn. repeat split; intros _; repeat constructor; cbn; try tauto; intros [H|H]; try easy; discriminate.
      * cbn. unfold no_dot. repeat split; intros [H|H]; try easy; discriminate.
    + constructor. constructor; [now constructor|]. constructor; [|constructor].
      apply ok_union with (name := bs "b"%string); [reflexivity|right; left; reflexivity|reflexivity|].
      constructor. constructor; [|constructor]. apply ok_int with (n := 4%nat); [reflexivity|]. unfold signed_in. cbn. lia.
  - eexists _, _. reflexivity.
  - intros fp same fuel. reflexivity.
  - eexists _, _. reflexivity.
Qed.
(** A marked Union in which nothing is selected cannot be cloned. *)
Theorem C21_unselected_union_refuted : exists v, value_of cp_union v /\
  forall fp same fuel, clone (5 + fuel) fp same v = (RNoConvert, None).
Proof.
  exists (cp_union_v None). split.
  - split; [|split; [reflexivity|]].
    + split; [reflexivity|]. split.
      * cbn. repeat split; intros _; repeat constructor; cbn; try tauto; intros [H|H]; try easy; discriminate.
      * cbn. unfold no_dot. repeat split; intros [H|H]; try easy; discriminate.
    + constructor. constructor; [now constructor|]. constructor; [|constructor]. apply ok_unselected. now left.
  - intros fp same fuel. reflexivity.
Qed.
(** A value which is an array of structures (for instance the selection of a
    Union) cannot be cloned. *)
Theorem C21_struct_array_refuted : exists m v, value_of m v /\
  forall fp same fuel, clone (5 + fuel) fp same v = (RNoConvert, None).
Proof.
  pose (m := Mem tc_StructA [] [] [Mem tc_Int32 (bs "x"%string) [] []]).
  exists m, (Val (flatten m) [(true, SArr ANull)]). split.
  - split; [|split; [reflexivity|]].
    + split; [reflexivity|]. split.
      * cbn. repeat split; intros _; repeat constructor; cbn; tauto.
      * cbn. unfold no_dot. repeat split; intros [H|H]; try easy; discriminate.
    + constructor. constructor; [|constructor]. now apply ok_untyped.
  - intros fp same fuel. reflexivity.
Qed.
(** Marking the root of a value stands for all of its fields, but their contents
    are not copied. *)
Theorem C21_root_mark_refuted : exists m v c, value_of m v /\
  (forall j, (j < List.length (flatten m))%nat -> sent (flatten m) (v_cells v) None j) /\
  (forall fp same fuel, clone (5 + fuel) fp same v = (ROk, Some c)) /\
  nth_error (v_cells v) 1 = Some (false, SInt 5) /\ nth_error (v_cells c) 1 = Some (false, SInt 0).
Proof.
  pose (m := Mem tc_Struct [] [] [Mem tc_Int32 (bs "x"%string) [] []]).
  exists m, (Val (flatten m) [(true, SNull); (false, SInt 5)]), (Val (flatten m) [(true, SNull); (false, SInt 0)]).
  assert (G : good_type m).
  { split; [reflexivity|]. split.
    * cbn. repeat split; intros _; repeat constructor; cbn; tauto.
    * cbn. unfold no_dot. repeat split; intros [H|H]; try easy; discriminate. }
  split; [|split; [|split; [|split; reflexivity]]].
  - split; [exact G|split; [reflexivity|]]. constructor. constructor; [now constructor|]. constructor; [|constructor].
    apply ok_int with (n := 4%nat); [reflexivity|]. unfold signed_in. cbn. lia.
  - intros j J. exists 0%nat. split; [split; [eexists; reflexivity|exact Logic.I]|].
    destruct j as [|j]; [now left|right]. apply root_inside_iff; [exact G|]. rewrite nfields_flatten. lia.
  - intros fp same fuel. reflexivity.
Qed.

(** ** C55: delta cache *)

(** [s'] is [s], except that a selected value is replaced by its clone. *)
Definition cloned_sto (fuel : nat) (fp : fpu) (same : list fdesc -> list fdesc -> bool) (s s' : sto value) : Prop :=
  match s with
  | SSel (Some (i, v)) => exists v', clone fuel fp same v = (ROk, Some v') /\ s' = SSel (Some (i, v'))
  | _ => s' = s
  end.
(** After cache_sync() both hold, in each field, the update's content if the
    field was marked in the update, the cached content if not; no mark has
    changed.  A value selected in a Union or Any is cloned: it must be one which
    can be (see C21). *)
Theorem C55_sync_partial : forall fuel fp same cache delta,
  Forall2 (fun c d => same_kind (snd c) (snd d)) cache delta ->
  (forall i (cm : bool) (cs : sto value) (dm : bool) (ds : sto value) k v, nth_error cache i = Some (cm, cs) -> nth_error delta i = Some (dm, ds) ->
     (if dm then ds else cs) = SSel (Some (k, v)) -> exists v', clone fuel fp same v = (ROk, Some v')) ->
  exists cache' delta', cache_sync fuel fp same cache delta = (ROk, cache', delta') /\
    List.length cache' = List.length cache /\ List.length delta' = List.length delta /\
    forall i (cm : bool) (cs : sto value) (dm : bool) (ds : sto value), nth_error cache i = Some (cm, cs) -> nth_error delta i = Some (dm, ds) ->
      exists cs' ds', nth_error cache' i = Some (cm, cs') /\ nth_error delta' i = Some (dm, ds') /\
        (if dm then ds' = ds /\ cloned_sto fuel fp same ds cs' else cs' = cs /\ cloned_sto fuel fp same cs ds').
Proof.
  intros fuel fp same cache delta F. induction F as [|(cm, cs) (dm, ds) cache delta K F IH]; intro CL.
  - exists [], []. split; [reflexivity|]. repeat (split; [reflexivity|]). intros [|i]; discriminate.
  - destruct IH as (cache' & delta' & X & L1 & L2 & H).
    { intros i cm' cs' dm' ds' k v E1 E2. apply (CL (S i) cm' cs' dm' ds' k v E1 E2). }
    cbn [snd] in *. pose proof (CL 0%nat cm cs dm ds) as C0. clear CL.
    assert (STEP : exists cs' ds', cache_sync fuel fp same ((cm, cs) :: cache) ((dm, ds) :: delta) = (ROk, (cm, cs') :: cache', (dm, ds') :: delta') /\
      (if dm then ds' = ds /\ cloned_sto fuel fp same ds cs' else cs' = cs /\ cloned_sto fuel fp same cs ds')).
    { cbn [cache_sync]. unfold cell in *. rewrite X.
      destruct ds as [| | | | | |od|], cs as [| | | | | |oc|]; try easy; destruct dm;
        try (eexists _, _; split; [reflexivity|]; split; reflexivity).
      - destruct od as [(k, v)|]; [|eexists _, _; split; [reflexivity|]; split; reflexivity].
        destruct (C0 k v eq_refl eq_refl eq_refl) as (v' & E). rewrite E. eexists _, _. split; [reflexivity|]. split; [reflexivity|].
        cbn [cloned_sto]. eauto.
      - destruct oc as [(k, v)|]; [|eexists _, _; split; [reflexivity|]; split; reflexivity].
        destruct (C0 k v eq_refl eq_refl eq_refl) as (v' & E). rewrite E. eexists _, _. split; [reflexivity|]. split; [reflexivity|].
        cbn [cloned_sto]. eauto. }
    destruct STEP as (cs' & ds' & STEP & R). exists ((cm, cs') :: cache'), ((dm, ds') :: delta').
    split; [exact STEP|]. split; [cbn [List.length]; congruence|]. split; [cbn [List.length]; congruence|].
    intros [|i] cm' cs1 dm' ds1 E1 E2; cbn [nth_error] in *; [|eauto].
    injection E1 as <- <-. injection E2 as <- <-. eauto.
Qed.
(** An update holding an array of structures in an Any cannot be synchronised:
    the exception leaves the fields after it as they were. *)
Theorem C55_struct_array_refuted : exists m v, value_of m v /\
  forall fp same fuel, exists cache' delta', cache_sync (5 + fuel) fp same (v_cells v) (v_cells v) = (RNoConvert, cache', delta').
Proof.
  pose (e := Mem tc_StructA [] [] [Mem tc_Int32 (bs "x"%string) [] []]).
  pose (m := Mem tc_Struct [] [] [Mem tc_Any (bs "a"%string) [] []]).
  exists m, (Val (flatten m) [(false, SNull); (true, SSel (Some (O, Val (flatten e) [(true, SArr ANull)])))]). split.
  - split; [|split; [reflexivity|]].
    + split; [reflexivity|]. split.
      * cbn. repeat split; intros _; repeat constructor; cbn; tauto.
      * cbn. unfold no_dot. repeat split; intros [H|H]; try easy; discriminate.
    + constructor. constructor; [now constructor|]. constructor; [|constructor]. apply ok_any with (m := e); [reflexivity| |cbn; lia|reflexivity|].
      * split; [reflexivity|]. split.
        -- cbn. repeat split; intros _; repeat constructor; cbn; tauto.
        -- cbn. unfold no_dot. repeat split; intros [H|H]; try easy; discriminate.
      * constructor. constructor; [|constructor]. now apply ok_untyped.
  - intros fp same fuel. eexists _, _. reflexivity.
Qed.

(** ** Examples: the hypotheses are met *)
Definition cp_type : member := Mem tc_Struct [] []
  [Mem tc_Int16 (bs "n"%string) [] []; Mem tc_Struct (bs "s"%string) [] [Mem tc_String (bs "t"%string) [] []; Mem (tc_arrayOf tc_UInt8) (bs "v"%string) [] []]].
Lemma cp_good : good_type cp_type.
Proof.
  split; [reflexivity|]. split.
  - cbn. repeat split; intros _; repeat constructor; cbn; try tauto; intros [H|H]; try easy; discriminate.
  - cbn. unfold no_dot. repeat split; intros [H|H]; try easy; discriminate.
Qed.
Definition cp_src : list cell := [(false, SNull); (false, SInt 5); (true, SNull); (false, SStr (bs "hi"%string)); (false, SArr (APod (tc_arrayOf tc_UInt8) [1; 2]))].
Definition cp_dst : list cell := [(false, SNull); (true, SInt 3); (false, SNull); (false, SStr []); (false, SArr ANull)].
Example C21_example : exact_widening no_fpu /\ types_shared (fun _ _ => true) /\ value_of cp_type (Val (flatten cp_type) cp_src) /\
  struct_at cp_type 0 cp_type /\ storage_for cp_type (Val (flatten cp_type) cp_dst) /\ no_union cp_type /\
  assign 2 no_fpu (fun _ _ => true) (flatten cp_type) cp_dst 0 (Val (flatten cp_type) cp_src) 0 =
    (ROk, true, [(false, SNull); (true, SInt 3); (true, SNull); (true, SStr (bs "hi"%string)); (true, SArr (APod (tc_arrayOf tc_UInt8) [1; 2]))]).
Proof.
  split; [intros x _; reflexivity|]. split; [intro n; reflexivity|]. split.
  { split; [exact cp_good|]. split; [reflexivity|]. constructor. constructor; [now constructor|].
    constructor; [apply ok_int with (n := 2%nat); [reflexivity|unfold signed_in; cbn; lia]|]. constructor; [now constructor|].
    constructor; [apply ok_str; [reflexivity|unfold fits32; cbn; lia]|]. constructor; [|constructor].
    match goal with |- node_ok ?d _ => apply (ok_pod d 1%nat [1; 2]) end; [reflexivity| |unfold fits32; cbn; lia]. repeat constructor; cbn; unfold unsigned_in; cbn; lia. }
  split; [split; [reflexivity|now left]|]. split.
  { split; [reflexivity|]. cbn. repeat constructor; eexists; (split; [reflexivity|exact Logic.I]). }
  split; [|reflexivity]. unfold no_union. cbn. repeat constructor; discriminate.
Qed.
(** -1 into a UInt8 array; 65538 into an Int16; text into a number *)
Example C19_example : field_of (flatten cp_type) cp_dst 1 tc_Int16 /\ int_src (PInt 65538) 65538 /\
  copy_in 1 no_fpu (fun _ _ => true) (flatten cp_type) cp_dst 1 (PInt 65538) = (ROk, true, cell_set 1 (true, SInt 2) cp_dst) /\
  copy_in 1 no_fpu (fun _ _ => true) (flatten cp_type) cp_dst 1 (PStr (bs "-0x10"%string)) = (ROk, true, cell_set 1 (true, SInt (-16)) cp_dst) /\
  copy_in 1 no_fpu (fun _ _ => true) (flatten cp_type) cp_dst 1 (PStr (bs "4z"%string)) = (RNoConvert, false, cp_dst) /\
  field_of (flatten cp_type) cp_dst 4 (tc_arrayOf tc_UInt8) /\ Forall (in_type tc_Int32) [-1; 258] /\
  copy_in 1 no_fpu (fun _ _ => true) (flatten cp_type) cp_dst 4 (PArr (APod (tc_arrayOf tc_Int32) [-1; 258])) =
    (ROk, true, cell_set 4 (true, SArr (APod (tc_arrayOf tc_UInt8) [255; 2])) cp_dst).
Proof.
  split; [eexists _, _, _, _; repeat (split; [reflexivity|]); exact Logic.I|].
  split; [left; split; [reflexivity|]; cbn; unfold signed_in; cbn; lia|].
  split; [reflexivity|]. split; [reflexivity|]. split; [reflexivity|].
  split; [eexists _, _, _, _; repeat (split; [reflexivity|]); exact Logic.I|].
  split; [repeat constructor; cbn; unfold signed_in; cbn; lia|reflexivity].
Qed.
Example C55_example : cache_sync 1 no_fpu (fun _ _ => true) cp_dst [(false, SNull); (false, SInt 9); (false, SNull); (true, SStr (bs "x"%string)); (false, SArr ANull)]
  = (ROk, [(false, SNull); (true, SInt 3); (false, SNull); (false, SStr (bs "x"%string)); (false, SArr ANull)],
     [(false, SNull); (false, SInt 3); (false, SNull); (true, SStr (bs "x"%string)); (false, SArr ANull)]).
Proof. reflexivity. Qed.

Print Assumptions C19_integer_stored.
Print Assumptions C19_integer_read.
Print Assumptions C19_write_read.
Print Assumptions C19_integer_text.
Print Assumptions C19_integer_read_text.
Print Assumptions C19_text_to_signed.
Print Assumptions C19_text_to_unsigned_partial.
Print Assumptions C19_bool_field.
Print Assumptions C19_bool_source.
Print Assumptions C19_failure_harmless.
Print Assumptions C19_failed_assignment_marks_refuted.
Print Assumptions C19_real_to_integer_refuted.
Print Assumptions C20_integer_array.
Print Assumptions C20_empty_array.
Print Assumptions C20_integer_to_text.
Print Assumptions C20_text_to_signed.
Print Assumptions C20_bool_arrays.
Print Assumptions C21_assign_partial.
Print Assumptions C21_clone_partial.
Print Assumptions C21_union_selection_refuted.
Print Assumptions C21_unselected_union_refuted.
Print Assumptions C21_struct_array_refuted.
Print Assumptions C21_root_mark_refuted.
Print Assumptions C55_sync_partial.
Print Assumptions C55_struct_array_refuted.
