(** Theorems on type descriptions: C11, C12 (types), C15, C18 (lookup tables),
    C45, C53, C54, and C07 / C08 for the type decoder. *)
From Coq Require Import ZArith List Bool Lia ZifyBool ZifyNat.
From Verif Require Import Base BaseProofs WireModel WireSpec WireProofs SegModel SegSpec SegProofs SegProps
  TypeModel TypeSpec TypeProofs TypeNameProofs TypeDefProofs TypeEqProofs.
Import ListNotations.
Local Open Scope Z_scope.

(** ** C11 *)

Lemma byte_cases (P : Z -> Prop) : Forall P (map Z.of_nat (seq 0 256)) -> forall c, 0 <= c < 256 -> P c.
Proof.
  intros F c H. rewrite Forall_forall in F. apply F. apply in_map_iff. exists (Z.to_nat c).
  split; [lia|]. apply in_seq. lia.
Qed.
Lemma valid_code_cases c : 0 <= c < 256 -> tc_valid c = true ->
  (has_members c = true /\ sou c = true) \/ (has_members c = false /\ leaf_code c = true /\ sou c = false).
Proof.
  intros H.
  assert (G : (fun c => negb (tc_valid c) || (has_members c && sou c) || (negb (has_members c) && leaf_code c && negb (sou c)) = true) c).
  { apply (byte_cases (fun c => negb (tc_valid c) || (has_members c && sou c) || (negb (has_members c) && leaf_code c && negb (sou c)) = true)); [|exact H].
    apply forallb_Forall. vm_compute. reflexivity. }
  cbv beta in G. intro V. rewrite V in G. destruct (has_members c), (sou c), (leaf_code c); cbn in G; try discriminate; auto.
Qed.

(** Whatever is built through the constructors of Member is describable. *)
Lemma built_describable m : member_built m = true -> fits_wire m = true -> describable m = true.
Proof.
  induction m as [code name id cs IH] using member_ind'. cbn [member_built fits_wire describable].
  unfold member_validate, node_validate. cbn [m_name m_id m_code m_children].
  rewrite !andb_true_iff, !forallb_Forall.
  intros [[[_ [[V1 V2] _]] V3] B] [[[[[R1 R2] WN] WI] ZC] F].
  destruct (valid_code_cases code ltac:(lia) V2) as [[M S]|(M & L & S)]; rewrite M.
  - rewrite WI, ZC. cbn [andb]. apply forallb_Forall. rewrite Forall_forall in *. intros c I.
    rewrite IH; auto. specialize (F c I). destruct c as [c1 n1 i1 cs1]. cbn [fits_wire m_name] in *. rewrite !andb_true_iff in F.
    destruct F as [[[[[_ _] F] _] _] _]. now rewrite F.
  - rewrite L, S in *. rewrite orb_false_r in V1. rewrite V1. destruct cs as [|c cs]; [reflexivity|].
    exfalso. inversion V3; subst. rewrite andb_true_iff in H1. destruct H1 as [_ X]. try rewrite S in X. discriminate.
Qed.

(** C11: every type made through the TypeDef API (without abort), nested at
    most 21 levels, is received as the very same description, in both byte
    orders, whatever is in the receiver's cache and whatever follows. *)
Theorem C11_type_roundtrip : forall host host' be m nodes cache fuel,
  typedef_make m = OK nodes -> fits_wire m = true -> (levels m <= 21)%nat -> (levels m <= fuel)%nat ->
  exists e, (forall pre, to_wire_desc fuel host nodes (outbuf pre be) = Some (outbuf (pre ++ e) be)) /\
  forall rest, from_wire_types host' cache (inbuf (e ++ rest) be) = (nodes, cache, inbuf rest be).
Proof.
  intros host host' be m nodes cache fuel T W L1 L2. unfold typedef_make in T.
  destruct (member_built m) eqn:B; [|discriminate]. cbn [negb] in T. unfold build_tree in T.
  destruct (build_asserts m); [|discriminate]. inversion T; subst nodes.
  pose proof (built_describable m B W) as D. exists (enc_type be m). split.
  - intro pre. pose proof (encodes_all host be m D fuel 0%nat [] pre L2) as E.
    now rewrite app_nil_r, set_parent_flatten in E.
  - intro rest. exact (decodes_all host' be m D 21%nat cache rest L1).
Qed.

(** The limit in C11 is the decoder's: at 22 levels the sender sends what every
    receiver rejects. *)
Fixpoint nest (n : nat) : member :=
  match n with
  | O => Mem tc_Int32 [97] [] []
  | S n' => Mem tc_Struct [97] [] [nest n']
  end.
Theorem C11_deeper_refuted : exists m nodes e, typedef_make m = OK nodes /\ fits_wire m = true /\
  to_wire_desc 30 false nodes (outbuf [] false) = Some (outbuf e false) /\
  rerr (snd (from_wire_types false [] (inbuf e false))) = true.
Proof.
  exists (nest 21). eexists. eexists. split; [vm_compute; reflexivity|]. split; [vm_compute; reflexivity|].
  split; [vm_compute; reflexivity|]. vm_compute. reflexivity.
Qed.

(** TypeDef(Value): the tree rebuilt from the nodes is the tree they were made
    from (up to the name of the root, which nodes do not hold), so what is
    received determines the sender's definition. *)
Theorem C11_definition_recovered : forall m name fuel,
  describable m = true -> (levels m <= fuel)%nat -> copy_tree fuel name (flatten m) = Some (rename name m).
Proof.
  intros m name fuel D L. pose proof (copies_all m D fuel name 0%nat [] L) as E.
  now rewrite app_nil_r, set_parent_flatten in E.
Qed.

(** ** C12, types *)

(** Whatever bytes are received: the buffer faults, or there is no type (null),
    or the nodes are well formed; and the cache only ever holds well formed
    types.  [cache_ok] holds of the empty cache of a new connection, and is
    preserved, so it holds after any history. *)
Theorem C12_hostile_types_wellformed : forall host cache b, cache_ok cache -> is_bytes (rd b) ->
  let '(nodes, cache', b') := from_wire_types host cache b in
  cache_ok cache' /\
  (rerr b' = false -> nodes = [] \/ (wf_vec nodes /\ parents_ok nodes)).
Proof.
  intros host cache b C B. pose proof (from_wire_desc_types host 21 cache b C B) as [G1 G2]. unfold from_wire_types.
  destruct (from_wire_desc 21 host cache b) as [[nodes cache'] b']. cbn [fst snd] in *.
  split; [exact G1|]. intro E. destruct (G2 E) as [->|(m & D & ->)]; [auto|right].
  split; [now apply flatten_wf|now apply flatten_parents].
Qed.
Theorem C12_cache_starts_ok : cache_ok [].
Proof. intros k v H. discriminate. Qed.
Theorem C12_history_cache_ok : forall host msgs, Forall (fun b => is_bytes (rd b)) msgs -> cache_ok (receive_all host [] msgs).
Proof.
  intros host msgs. assert (G : forall c, cache_ok c -> Forall (fun b => is_bytes (rd b)) msgs -> cache_ok (receive_all host c msgs)).
  { induction msgs as [|b msgs IH]; intros c C F; [exact C|]. inversion F; subst. cbn [receive_all]. apply IH; [|assumption].
    apply (from_wire_desc_types host 21 c b C H1). }
  apply G, C12_cache_starts_ok.
Qed.

Theorem C07_type_decoder_safe : forall host cache, safe_decoder (from_wire_types host cache).
Proof. intros host cache b. apply safe_from_wire_desc. Qed.
Theorem C08_type_decoder_segment_independent : forall host cache, segment_independent (from_wire_types host cache).
Proof. intros. eapply program_segment_independent. apply p_desc_ok. Qed.

(** ** C15 *)

Lemma ts_find_emplace k v k' v' c : ts_find k c = Some v -> ts_find k (ts_emplace k' v' c) = Some v.
Proof.
  intro H. unfold ts_emplace. destruct (ts_find k' c) eqn:E; [exact H|]. cbn [ts_find].
  destruct (Z.eqb_spec k k') as [->|]; [congruence|exact H].
Qed.
Lemma desc_loop_keeps rec h k v : (forall c b, ts_find k c = Some v -> ts_find k (snd (fst (rec c b))) = Some v) ->
  forall cnt fld kids c name b, ts_find k c = Some v ->
  ts_find k (snd (fst (desc_loop rec h cnt fld kids c name b))) = Some v.
Proof.
  intro R. induction cnt as [|cnt IH]; intros fld kids c name b H; cbn [desc_loop]; [exact H|].
  destruct (from_wire_str h name b) as [name1 b1]. pose proof (R c b1 H) as H2.
  destruct (rec c b1) as [[new c'] b2]. cbn [fst snd] in H2. destruct (_ || _); [exact H2|].
  destruct (attach_child fld kids name1 new). now apply IH.
Qed.
Lemma desc_keeps h k v n : forall c b, ts_find k c = Some v -> ts_find k (snd (fst (from_wire_desc n h c b))) = Some v.
Proof.
  induction n as [|n IH]; intros c b H.
  { cbn. destruct (negb (rgood b)); exact H. }
  rewrite from_wire_desc_S. destruct (negb (rgood b)); [exact H|].
  destruct (from_wire_u h 1 tc_Null b) as [code b1]. destruct (code =? tc_Null); [exact H|].
  destruct (code =? 0xfd).
  { destruct (from_wire_u h 2 0 b1) as [key b2]. pose proof (IH c b2 H) as H2.
    destruct (from_wire_desc n h c b2) as [[new c'] b3]. cbn [fst snd] in H2. destruct (_ || _); [exact H2|].
    now apply ts_find_emplace. }
  destruct (code =? 0xfe).
  { destruct (from_wire_u h 2 0 b1) as [key b2]. destruct (ts_find key c); [|exact H]. destruct (_ || _); exact H. }
  destruct (negb _); [exact H|].
  destruct (is_array_of_compound code).
  { pose proof (IH c b1 H) as H2. destruct (from_wire_desc n h c b1) as [[mem c'] b2]. cbn [fst snd] in H2.
    destruct (_ || _); exact H2. }
  destruct (_ || _).
  { destruct (from_wire_str h [] b1) as [id b2]. destruct (from_wire_size h 0 false b2) as [nfld b3].
    pose proof (desc_loop_keeps (from_wire_desc n h) h k v IH (Z.to_nat nfld) (FD id [] [] 0 [] code) [] c [] b3 H) as H2.
    destruct (desc_loop _ _ _ _ _ _ _ _) as [[[fld kids] c'] b4]. exact H2. }
  destruct (tc_simple_scalar _); exact H.
Qed.
Lemma receive_keeps h k v msgs : forall c, ts_find k c = Some v -> ts_find k (receive_all h c msgs) = Some v.
Proof. induction msgs as [|b msgs IH]; intros c H; [exact H|]. cbn [receive_all]. apply IH. now apply desc_keeps. Qed.

Lemma two_bytes_enc be key : 0 <= key < 65536 -> two_bytes be key = enc_u be 2 key.
Proof.
  intro K. unfold two_bytes, enc_u. rewrite u_cast_id by (change (8 * Z.of_nat 2) with 16; lia). 
  assert (0 <= key / 256 < 256) by (split; [apply Z.div_pos|apply Z.div_lt_upper_bound]; lia).
  destruct be; cbn [le_bytes rev app]; now rewrite (Z.mod_small (key / 256)) by lia.
Qed.
Lemma define_decodes h be key m cache rest : 0 <= key < 65536 -> describable m = true -> (levels m <= 20)%nat ->
  from_wire_types h cache (inbuf (define_msg be key (enc_type be m) ++ rest) be) = (flatten m, ts_emplace key (flatten m) cache, inbuf rest be).
Proof.
  intros K D L. unfold from_wire_types, define_msg. rewrite two_bytes_enc by assumption. rewrite from_wire_desc_S. cbn [rgood rerr inbuf negb app].
  fold (inbuf (0xfd :: (enc_u be 2 key ++ enc_type be m) ++ rest) be).
  rewrite from_wire_code by lia. change (0xfd =? tc_Null) with false. change (0xfd =? 0xfd) with true. cbv iota.
  rewrite <- app_assoc, from_wire_u_in by (change (2 ^ (8 * Z.of_nat 2)) with 65536; lia).
  rewrite (decodes_all h be m D 20%nat cache rest L). cbn [rgood rerr inbuf negb orb].
  rewrite flatten_nonnil, set_parent_flatten. reflexivity.
Qed.
Lemma refer_decodes h be key v cache rest : 0 <= key < 65536 -> ts_find key cache = Some v -> is_nil v = false ->
  from_wire_types h cache (inbuf (refer_msg be key ++ rest) be) = (v, cache, inbuf rest be).
Proof.
  intros K F N. unfold from_wire_types, refer_msg. rewrite two_bytes_enc by assumption. rewrite from_wire_desc_S. cbn [rgood rerr inbuf negb app].
  fold (inbuf (0xfe :: enc_u be 2 key ++ rest) be).
  rewrite from_wire_code by lia. change (0xfe =? tc_Null) with false. change (0xfe =? 0xfd) with false. change (0xfe =? 0xfe) with true. cbv iota.
  rewrite from_wire_u_in by (change (2 ^ (8 * Z.of_nat 2)) with 65536; lia).
  rewrite F. cbn [rgood rerr inbuf negb orb]. now rewrite N.
Qed.

(** C15, the part which holds: a key used for the first time for type [m]
    refers to [m] at any later time on the connection, whatever was received in
    between (also malformed messages and attempts to define the key again).
    Missing for the full property: a later definition under the same key should
    take its place; see C15_redefinition_refuted. *)
Theorem C15_first_definition_partial : forall host be key m cache between rest rest',
  0 <= key < 65536 -> describable m = true -> (levels m <= 20)%nat -> ts_find key cache = None ->
  exists ty, (forall pre, to_wire_desc (levels m) host (flatten m) (outbuf pre be) = Some (outbuf (pre ++ ty) be)) /\
  let '(nodes, cache', b') := from_wire_types host cache (inbuf (define_msg be key ty ++ rest) be) in
  nodes = flatten m /\ b' = inbuf rest be /\
  from_wire_types host (receive_all host cache' between) (inbuf (refer_msg be key ++ rest') be)
  = (flatten m, receive_all host cache' between, inbuf rest' be).
Proof.
  intros host be key m cache between rest rest' K D L F. exists (enc_type be m). split.
  { intro pre. pose proof (encodes_all host be m D (levels m) 0%nat [] pre (le_n _)) as E.
    now rewrite app_nil_r, set_parent_flatten in E. }
  rewrite define_decodes by assumption. repeat split. apply refer_decodes; [assumption| |apply flatten_nonnil].
  apply receive_keeps. unfold ts_emplace. rewrite F. cbn [ts_find]. now rewrite Z.eqb_refl.
Qed.

(** Defining key 5 as int, then as string, then referring to it yields int. *)
Theorem C15_redefinition_refuted : exists m1 m2 cache,
  flatten m1 <> flatten m2 /\
  cache = receive_all false [] [inbuf (define_msg false 5 (enc_type false m1)) false;
                                inbuf (define_msg false 5 (enc_type false m2)) false] /\
  fst (fst (from_wire_types false cache (inbuf (refer_msg false 5) false))) = flatten m1.
Proof.
  exists (Mem tc_Int32 [] [] []), (Mem tc_String [] [] []). eexists. split; [discriminate|]. split; [reflexivity|].
  vm_compute. reflexivity.
Qed.

(** A reference to a key never defined is an error. *)
Theorem C15_unknown_key_faults : forall host be key cache rest, 0 <= key < 65536 -> ts_find key cache = None ->
  rerr (snd (from_wire_types host cache (inbuf (refer_msg be key ++ rest) be))) = true.
Proof.
  intros host be key cache rest K F. unfold from_wire_types, refer_msg. rewrite two_bytes_enc by assumption. rewrite from_wire_desc_S. cbn [rgood rerr inbuf negb app].
  fold (inbuf (0xfe :: enc_u be 2 key ++ rest) be).
  rewrite from_wire_code by lia. change (0xfe =? tc_Null) with false. change (0xfe =? 0xfd) with false. change (0xfe =? 0xfe) with true. cbv iota.
  rewrite from_wire_u_in by (change (2 ^ (8 * Z.of_nat 2)) with 65536; lia).
  now rewrite F.
Qed.

(** ** C18, lookup tables *)

(** The name table of a Struct has an entry for a dotted name exactly when there
    is a field at that path, and the entry is the number of that field, whose
    node describes it. *)
Theorem C18_lookup_table : forall m path i d,
  m_code m = tc_Struct -> distinct_struct_names m -> all_names no_dot m -> field_at m path i d ->
  map_get (join path) (lookup_of m) = Some i /\ located m i d.
Proof.
  intros m path i d S N A P. destruct (field_at_plist m path i d P) as (_ & I).
  split; [|exact (field_at_located _ _ _ _ P)]. apply map_get_In; [apply sorted_NoDup, lookup_sorted|].
  apply lookup_In; auto. now apply plist_NoDup.
Qed.
Theorem C18_lookup_table_only : forall m key i,
  m_code m = tc_Struct -> map_get key (lookup_of m) = Some i ->
  exists path d, key = join path /\ field_at m path i d.
Proof.
  intros m key i S H. apply map_get_In in H; [|apply sorted_NoDup, lookup_sorted].
  apply lookup_incl in H; [|exact S]. exact (plist_field_at m key i H).
Qed.

(** ** C45 *)

(** For names without a NUL byte, accepted = C identifier. *)
Theorem C45_names_partial : forall n, ~ In 0 n -> (name_validate n = true <-> identifier n).
Proof. intros n N. rewrite name_validate_identifier, c_str_id by assumption. reflexivity. Qed.
(** Missing: std::string may hold a NUL, and validation stops there. *)
Theorem C45_nul_refuted : exists n, name_validate n = true /\ ~ identifier n /\ ~ no_dot n.
Proof.
  exists [97; 0; 46; 98]. split; [reflexivity|]. split.
  - intros (c & r & E & _ & F). inversion E; subst. inversion F; subst. destruct H1 as [[H|[H|H]]|H]; unfold is_letter, is_digit in *; lia.
  - intro H. apply H. cbn. auto.
Qed.
(** Missing: Member accepts an empty name for a child. *)
Theorem C45_empty_refuted : exists m, typedef_make m = OK (flatten m) /\ map m_name (m_children m) = [[]] /\ ~ identifier [].
Proof.
  exists (Mem tc_Struct [] [] [Mem tc_Int32 [] [] []]). split; [reflexivity|]. split; [reflexivity|].
  intros (c & r & E & _). discriminate.
Qed.
(** Every non-empty name in a tree which was constructed is a C identifier up to
    its first NUL. *)
Theorem C45_constructed_names : forall m, member_built m = true ->
  all_names (fun n => n = [] \/ identifier (c_str n)) m.
Proof.
  induction m as [code name id cs IH] using member_ind'. cbn [member_built]. rewrite andb_true_iff, forallb_Forall.
  intros [_ B]. apply all_names_children. rewrite Forall_forall in *. intros c I. split; [|now apply IH; auto].
  specialize (B c I). destruct c as [c1 n1 i1 cs1]. cbn [member_built m_name] in *. unfold member_validate in B. cbn [m_name] in B.
  rewrite !andb_true_iff in B. destruct B as [[[B _] _] _]. apply orb_true_iff in B. destruct B as [B|B].
  - left. now destruct n1.
  - right. now apply name_validate_identifier.
Qed.

(** ** C53 *)

(** When += succeeds, existing members keep their place at every level, and the
    fields are exactly the old ones and the added ones. *)
Theorem C53_append : forall top adopts m, typedef_append top adopts = OK m ->
  extends (m_children top) (m_children m) /\
  (forall path, has_path (m_children m) path <-> has_path (m_children top) path \/ has_path adopts path) /\
  m_code m = m_code top /\ m_name m = m_name top /\ m_id m = m_id top /\ build_tree m = Some (flatten m).
Proof.
  intros top adopts m H. unfold typedef_append in H. destruct (negb _); [discriminate|].
  assert (FE : forall l acc, fold_left (fun acc a => match acc with Some cs => append_child a cs | None => None end) l acc
    = match acc with Some cs => append_each l cs | None => None end).
  { induction l as [|a l IH]; intros [cs|]; cbn [fold_left append_each]; rewrite ?IH; reflexivity. }
  rewrite FE in H. destruct (append_each adopts (m_children top)) as [cs|] eqn:E; [|discriminate].
  destruct (append_each_ok adopts) with (cs := m_children top) (r := cs) as [A1 A2]; [|exact E|].
  { apply Forall_forall. intros; apply step_ok_all. }
  cbv zeta in H. destruct (build_tree _) eqn:B in H; [|discriminate]. inversion H; subst m. cbn [m_children m_code m_name m_id].
  repeat split; auto; try (intro; now apply A2). unfold build_tree in *. destruct (build_asserts _); [reflexivity|discriminate].
Qed.
(** One member added at one level: appended at the end when the name is new,
    else merged in place, taking the code and (when given) id of the addition. *)
Theorem C53_append_one : forall adopt cs r, append_child adopt cs = Some r ->
  (~ In (m_name adopt) (map m_name cs) /\ r = cs ++ [adopt]) \/
  (exists before c c' after, cs = before ++ c :: after /\ ~ In (m_name adopt) (map m_name before) /\
     m_name c = m_name adopt /\ r = before ++ c' :: after /\ m_name c' = m_name c /\ m_code c' = m_code adopt /\
     m_id c' = (if is_nil (m_id adopt) then m_id c else m_id adopt) /\
     tc_compound (m_code c) = tc_compound (m_code adopt)).
Proof. exact append_child_member. Qed.
(** The rebuild succeeds exactly when no Struct has two members of one name;
    else the process aborts (an assert).  += never introduces a duplicate by
    itself, but the members given to it may hold one. *)
Theorem C53_rebuild : forall m, codes_ok m -> all_names no_dot m ->
  (build_tree m = Some (flatten m) <-> distinct_struct_names m).
Proof.
  intros m C A. rewrite <- build_asserts_names by assumption. unfold build_tree. destruct (build_asserts m); split; congruence.
Qed.
Theorem C53_duplicate_aborts_refuted : exists top adopts, member_built top = true /\ forallb member_built adopts = true /\
  typedef_append top adopts = Aborts.
Proof.
  exists (Mem tc_Struct [] [] []), [Mem tc_Struct [97] [] [Mem tc_Int32 [98] [] []; Mem tc_Int32 [98] [] []]].
  repeat split.
Qed.
(** A Struct member may be turned into Any, keeping members it can no longer
    have: what comes out is not a definition which could have been built. *)
Theorem C53_recode_refuted : exists top adopts m, member_built top = true /\ forallb member_built adopts = true /\
  typedef_append top adopts = OK m /\ member_built m = false.
Proof.
  exists (Mem tc_Struct [] [] [Mem tc_Struct [97] [] [Mem tc_Int32 [98] [] []]]), [Mem tc_Any [97] [] []].
  eexists. repeat split; try reflexivity. 
Qed.

(** ** C54 *)

(** Types of the same shape compare equal (with or without unions). *)
Theorem C54_same_shape_equal : forall a b fuel, same_shape a b -> good_type a -> good_type b -> (levels a <= fuel)%nat ->
  fd_equal fuel (flatten a) (flatten b) = Some true.
Proof. exact fd_equal_complete. Qed.
Lemma same_shape_refl a : same_shape a a.
Proof. induction a as [code name id cs IH] using member_ind'. constructor; [reflexivity|]. cbn [m_children]. induction IH; constructor; auto. Qed.
Lemma same_shape_sym a b : same_shape a b -> same_shape b a.
Proof.
  revert a b. apply same_shape_ind2. intros c1 n1 i1 cs1 c2 n2 i2 cs2 E F. constructor; cbn [m_code m_children]; [now symmetry|].
  induction F as [|x y l l' (N & _ & S) F IH]; constructor; auto.
Qed.
Theorem C54_reflexive : forall a fuel, good_type a -> (levels a <= fuel)%nat -> fd_equal fuel (flatten a) (flatten a) = Some true.
Proof. intros. apply fd_equal_complete; auto. apply same_shape_refl. Qed.

(** For types without unions the comparison is exact, never undefined, and so
    symmetric.  Missing for the full property: unions. *)
Theorem C54_exact_partial : forall a b fuel, good_type a -> good_type b -> union_free a = true -> (levels a <= fuel)%nat ->
  exists r, fd_equal fuel (flatten a) (flatten b) = Some r /\ (r = true <-> same_shape a b).
Proof. exact fd_equal_exact. Qed.
Theorem C54_symmetric_partial : forall a b fuel, good_type a -> good_type b -> union_free a = true -> union_free b = true ->
  (levels a <= fuel)%nat -> (levels b <= fuel)%nat ->
  fd_equal fuel (flatten a) (flatten b) = fd_equal fuel (flatten b) (flatten a).
Proof.
  intros a b fuel GA GB UA UB LA LB. destruct (fd_equal_exact a b fuel GA GB UA LA) as (r & -> & R).
  destruct (fd_equal_exact b a fuel GB GA UB LB) as (r' & -> & R'). f_equal.
  assert (r = true <-> r' = true). { rewrite R, R'. split; apply same_shape_sym. }
  destruct r, r'; intuition congruence.
Qed.
(** Union {a} equals Union {a, b}; the other way round the comparison runs past
    the end of a map. *)
Theorem C54_union_refuted : exists a b, good_type a /\ good_type b /\ ~ same_shape a b /\
  fd_equal 5 (flatten a) (flatten b) = Some true /\ forall fuel, fd_equal (2 + fuel) (flatten b) (flatten a) = None.
Proof.
  exists (Mem tc_Union [] [] [Mem tc_Int32 [97] [] []]), (Mem tc_Union [] [] [Mem tc_Int32 [97] [] []; Mem tc_Int32 [98] [] []]).
  assert (ND : forall x, In x [97; 98] -> no_dot [x]) by (intros x [<-|[<-|[]]] [H|[]]; discriminate).
  split; [|split; [|split; [|split]]].
  - split; [reflexivity|]. split; [cbn; repeat split; discriminate|]. cbn. repeat split; apply ND; cbn; auto.
  - split; [reflexivity|]. split; [cbn; repeat split; discriminate|]. cbn. repeat split; apply ND; cbn; auto.
  - intro S. apply same_shape_inv in S. destruct S as [_ F]. cbn in F. inversion F; subst. inversion H4.
  - reflexivity.
  - intro fuel. reflexivity.
Qed.

(** ** Non-vacuity *)
(** struct "nt" { int a; struct b { string c; double[] d }; union[] e { int f; any g } ; struct[] h { int i } } *)
Definition ex_type : member :=
  Mem tc_Struct [] [110; 116]
    [Mem tc_Int32 [97] [] [];
     Mem tc_Struct [98] [] [Mem tc_String [99] [] []; Mem (tc_arrayOf tc_Float64) [100] [] []];
     Mem tc_UnionA [101] [] [Mem tc_Int32 [102] [] []; Mem tc_Any [103] [] []];
     Mem tc_StructA [104] [] [Mem tc_Int32 [105] [] []]].
Example C11_nonvacuous : typedef_make ex_type = OK (flatten ex_type) /\ fits_wire ex_type = true /\ levels ex_type = 4%nat
  /\ length (flatten ex_type) = 7%nat.
Proof. repeat split. Qed.
Example C12_nonvacuous : exists nodes, from_wire_types false [] (inbuf [0x80; 0; 1; 1; 97; 0x22; 9] false) = (nodes, [], inbuf [9] false)
  /\ length nodes = 2%nat.
Proof. eexists. split; vm_compute; reflexivity. Qed.
Example C12_faults : rerr (snd (from_wire_types false [] (inbuf [0x88; 0x22] false))) = true.
Proof. reflexivity. Qed.
Example C15_nonvacuous : describable ex_type = true /\ (levels ex_type <= 20)%nat.
Proof. split; [reflexivity|]. vm_compute. lia. Qed.
Lemma ex_type_good : good_type ex_type.
Proof.
  assert (ND : forall x, x <> dot -> no_dot [x]) by (intros x H [E|[]]; congruence).
  split; [reflexivity|]. split.
  - cbn. repeat split; try discriminate; intros _; repeat constructor; cbn; intuition discriminate.
  - cbn. repeat split; apply ND; discriminate.
Qed.
Example C18_nonvacuous : exists d, field_at ex_type [[98]; [100]] 4 d /\ map_get [98; 46; 100] (lookup_of ex_type) = Some 4%nat.
Proof.
  eexists. split; [|vm_compute; reflexivity].
  apply (fa_deeper ex_type [Mem tc_Int32 [97] [] []]
    (Mem tc_Struct [98] [] [Mem tc_String [99] [] []; Mem (tc_arrayOf tc_Float64) [100] [] []])
    [Mem tc_UnionA [101] [] [Mem tc_Int32 [102] [] []; Mem tc_Any [103] [] []]; Mem tc_StructA [104] [] [Mem tc_Int32 [105] [] []]]
    [[100]] 2); [reflexivity|reflexivity|reflexivity|].
  apply (fa_child (Mem tc_Struct [98] [] [Mem tc_String [99] [] []; Mem (tc_arrayOf tc_Float64) [100] [] []])
    [Mem tc_String [99] [] []] (Mem (tc_arrayOf tc_Float64) [100] [] []) []); reflexivity.
Qed.
Example C53_nonvacuous : exists m, typedef_append ex_type [Mem tc_Struct [98] [] [Mem tc_Bool [122] [] []]; Mem tc_Bool [122] [] []] = OK m
  /\ length (flatten m) = 9%nat.
Proof. eexists. split; vm_compute; reflexivity. Qed.
Example C54_nonvacuous : good_type ex_type /\ fd_equal 4 (flatten ex_type) (flatten ex_type) = Some true.
Proof. split; [exact ex_type_good|]. vm_compute. reflexivity. Qed.
Print Assumptions C11_type_roundtrip.
Print Assumptions C11_deeper_refuted.
Print Assumptions C11_definition_recovered.
Print Assumptions C12_hostile_types_wellformed.
Print Assumptions C12_cache_starts_ok.
Print Assumptions C12_history_cache_ok.
Print Assumptions C07_type_decoder_safe.
Print Assumptions C08_type_decoder_segment_independent.
Print Assumptions C15_first_definition_partial.
Print Assumptions C15_redefinition_refuted.
Print Assumptions C15_unknown_key_faults.
Print Assumptions C18_lookup_table.
Print Assumptions C18_lookup_table_only.
Print Assumptions C45_names_partial.
Print Assumptions C45_nul_refuted.
Print Assumptions C45_empty_refuted.
Print Assumptions C45_constructed_names.
Print Assumptions C53_append.
Print Assumptions C53_append_one.
Print Assumptions C53_rebuild.
Print Assumptions C53_duplicate_aborts_refuted.
Print Assumptions C53_recode_refuted.
Print Assumptions C54_same_shape_equal.
Print Assumptions C54_reflexive.
Print Assumptions C54_exact_partial.
Print Assumptions C54_symmetric_partial.
Print Assumptions C54_union_refuted.
