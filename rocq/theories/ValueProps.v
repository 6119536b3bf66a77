(** Theorems on values: C07, C08 and C12 for values, C13, C14. *)
From Coq Require Import ZArith List Bool Lia ZifyBool ZifyNat.
From Verif Require Import Base BaseProofs WireModel WireSpec WireProofs SegModel SegSpec SegProofs SegProps
  BitMaskModel BitMaskSpec BitMaskProofs TypeModel TypeSpec TypeProofs TypeNameProofs TypeProps
  ValueModel ValueSpec LayoutProofs ValueTypeProofs ValueSafeProofs ValueTopProofs ValueEncProofs ValueRoundProofs ValueUpdateProofs.
Import ListNotations.
Local Open Scope Z_scope.

(** ** C07 and C08 for the value decoders *)

Theorem C07_value_decoders_safe : forall fuel host v cache,
  safe_decoder (run_flat (from_wire_full fuel host v cache)) /\
  safe_decoder (run_flat (from_wire_valid fuel host v cache)) /\
  safe_decoder (run_flat (from_wire_type host cache)) /\
  safe_decoder (run_flat (from_wire_type_value fuel host cache)).
Proof. intros. repeat apply conj; intro b; apply run_flat_safe. Qed.

Theorem C08_value_decoders_segment_independent : forall fuel host v cache,
  segment_independent (run_flat (from_wire_full fuel host v cache)) /\
  segment_independent (run_flat (from_wire_valid fuel host v cache)) /\
  segment_independent (run_flat (from_wire_type host cache)) /\
  segment_independent (run_flat (from_wire_type_value fuel host cache)).
Proof. intros. repeat apply conj; eapply program_segment_independent; intro b; reflexivity. Qed.

(** ** C12 for values *)

Lemma res_ok_harmless {A} (P Q : A -> Prop) r : (forall x, P x -> Q x) -> res_ok P r -> harmless Q r.
Proof. intros I [->|(x & ts & -> & H & C)]; [exact Logic.I|]. split; auto. Qed.

(** Creating a Value of a received type: every field initialised and unmarked,
    or an exception. *)
Theorem C12_value_of_received_type : forall m, describable m = true ->
  (exists cells, value_new (flatten m) = DOK (Val (flatten m) cells) /\ usable (Val (flatten m) cells) /\
     length cells = length (flatten m) /\
     Forall2 (fun d c => fst c = false /\ sto_init (f_code d) = Some (snd c)) (flatten m) cells)
  \/ value_new (flatten m) = DThrow.
Proof.
  intros m D. destruct (value_new_spec m (flatten m) D) as [V1 V2]; [reflexivity|].
  destruct (Nat.eq_dec (f_size (first_node (flatten m))) (length (flatten m))) as [SZ|SZ]; [left|right; now apply V2].
  eexists. split; [now apply V1|]. split; [constructor; auto; now apply new_cells_good|]. split; [apply map_length|].
  pose proof (nodes_init m D) as NI. clear - NI. revert NI. generalize (flatten m). intros l NI. induction NI as [|d l H _ IH]; cbn [map]; constructor; auto.
Qed.
(** ... and no exception if the siblings have different names without dots. *)
Theorem C12_value_of_good_type : forall m, good_type m -> exists cells, value_new (flatten m) = DOK (Val (flatten m) cells).
Proof.
  intros m G. pose proof (good_sized m G) as S. destruct G as (D & _). destruct (value_new_spec m (flatten m) D) as [V1 _]; [reflexivity|]. eauto.
Qed.

(** Decoding whatever bytes as a value: of a known type, of a type sent along,
    or as a partial update.  The result is a usable value of the same type. *)
Theorem C12_hostile_values_harmless : forall fuel host v cache b,
  usable v -> cache_ok cache -> is_bytes (rd b) -> (length (rd b) < fuel)%nat ->
  harmless (fun v' => usable v' /\ v_nodes v' = v_nodes v) (fst (run_flat (from_wire_full fuel host v cache) b)).
Proof.
  intros fuel host v cache b U C B L. eapply res_ok_harmless; [|exact (from_wire_full_good fuel host v cache b U C B L)]. now intros x.
Qed.
Theorem C12_hostile_type_value_harmless : forall fuel host cache b,
  cache_ok cache -> is_bytes (rd b) -> (length (rd b) < fuel)%nat ->
  harmless (fun o => forall v, o = Some (Some v) -> usable v) (fst (run_flat (from_wire_type_value fuel host cache) b)) /\
  harmless (fun o => forall v, o = Some (Some v) -> usable v) (fst (run_flat (from_wire_type host cache) b)).
Proof.
  intros fuel host cache b C B L. split; eapply res_ok_harmless.
  2: exact (from_wire_type_value_good fuel host cache b C B L). 3: exact (from_wire_type_good host cache b C B). all: now intros x.
Qed.
(** Updates: only for types of less than 65536 fields, see the next theorem. *)
Theorem C12_hostile_update_harmless_partial : forall fuel host v cache b,
  usable v -> zlen (v_nodes v) < 2 ^ 16 -> cache_ok cache -> is_bytes (rd b) -> (length (rd b) < fuel)%nat ->
  harmless (fun v' => usable v' /\ v_nodes v' = v_nodes v) (fst (run_flat (from_wire_valid fuel host v cache) b)).
Proof.
  intros fuel host v cache b U N C B L. eapply res_ok_harmless; [|exact (from_wire_valid_good fuel host v cache b U N C B L)]. now intros x.
Qed.

(** With 65536 fields or more, an update with an empty mask (the single byte 0)
    sends the receiver into a loop it can only leave by an exception: the mask
    counts its bits modulo 65536 and findSet() returns that count at the end,
    which is below the number of fields (src/bitmask.h:94, src/dataencode.cpp:715-726). *)
Lemma big_update_loops node m nodes : bm_wf m -> (forall i, 0 <= i -> mbit m i = false) -> bm_size m < Z.of_nat (f_size (first_node nodes)) ->
  forall n cells ts b x, fst (run_flat (dec_bits n node m (bm_size m) nodes cells ts) b) <> DOK x.
Proof.
  intros W Z0 LT. induction n as [|n IH]; intros cells ts b x; cbn [dec_bits]; replace (_ <=? _) with false by lia; [discriminate|].
  cbv zeta. unfold dbind. rewrite run_flat_bind. destruct (run_flat (dec_field _ _ _ _) b) as [[r| | |] b']; cbn [fst run_flat]; try discriminate.
  assert (CL : bm_clean m) by (intros i Hi; apply Z0; destruct W as (_ & W2 & _); lia).
  destruct W as (W1 & W2 & W3).
  destruct (find_set_ok m (bm_size m + Z.of_nat (f_size (first_node (skipn (Z.to_nat (bm_size m)) nodes)))) (conj W1 (conj W2 W3)) CL ltac:(lia)) as (r' & -> & F).
  destruct F as [(F1 & F2 & F3 & _)|(-> & _)]; [rewrite Z0 in F3 by lia; discriminate|]. apply IH.
Qed.
Theorem C12_big_update_refuted : forall host be v rest fuel cache,
  usable v -> 2 ^ 16 <= zlen (v_nodes v) < 2 ^ 62 ->
  exists mask start b',
    run_flat (p_mask host bm_empty) (inbuf (0 :: rest) be) = (mask, b') /\
    find_set (bm_resize (zlen (v_nodes v)) mask) 0 = Some start /\
    (forall n x, fst (run_flat (dec_bits n (dec_node fuel host) (bm_resize (zlen (v_nodes v)) mask) start (v_nodes v) (v_cells v) cache) b') <> DOK x) /\
    (forall x, fst (run_flat (from_wire_valid fuel host v cache) (inbuf (0 :: rest) be)) <> DOK x).
Proof.
  intros host be v rest fuel cache U N. destruct U as [m cells D S C]. cbn [v_nodes v_cells] in *. set (nodes := flatten m) in *.
  destruct (from_wire_mask_in host bm_empty rest be) as (m0 & nb & E & M1 & M2 & _); [constructor|cbn; lia|].
  change (enc_mask be bm_empty ++ rest) with (enc_size be 0 ++ rest) in E. change (enc_size be 0) with [0] in E. cbn [app] in E.
  assert (Z0 : forall i, 0 <= i -> mbit m0 i = false).
  { intros i Hi. rewrite M1 by exact Hi. unfold mbit. cbn [bm_words bm_empty]. destruct (Z.to_nat (i / 64)); apply Z.bits_0. }
  set (mr := bm_resize (zlen nodes) m0).
  assert (BR : forall i, 0 <= i -> mbit mr i = false).
  { intros i Hi. unfold mr. rewrite resized_bits; auto; [lia|]. intros k Hk. apply Z0. lia. }
  assert (SZ : bm_size mr = zlen nodes mod 2 ^ 16).
  { unfold mr. rewrite bm_resize_words by lia. reflexivity. }
  pose proof (Z.mod_pos_bound (zlen nodes) (2 ^ 16) ltac:(lia)) as MB.
  assert (W : bm_wf mr).
  { split; [|split; [lia|]].
    - unfold mr. rewrite bm_resize_words by lia. cbn [bm_words]. unfold vec_resize. apply Forall_app. split; [now apply Forall_firstn|].
      apply Forall_forall. intros x Hx. apply repeat_spec in Hx. lia.
    - rewrite SZ. unfold mr. rewrite bm_resize_words by lia. cbn [bm_words]. unfold zlen at 2, vec_resize. rewrite app_length, firstn_length, repeat_length.
      unfold nwords_of. pose proof (Z.div_mod (zlen nodes + 63) 64 ltac:(lia)). pose proof (Z.mod_pos_bound (zlen nodes + 63) 64 ltac:(lia)).
      pose proof (Z.div_mod (zlen nodes) (2 ^ 16) ltac:(lia)). pose proof (Z.div_pos (zlen nodes) (2 ^ 16) ltac:(lia) ltac:(lia)). lia. }
  assert (CL : bm_clean mr) by (intros i Hi; apply BR; lia).
  destruct (find_set_ok mr 0 W CL ltac:(lia)) as (r & FS & F).
  assert (r = bm_size mr) as -> by (destruct F as [(F1 & F2 & F3 & _)|(-> & _)]; [rewrite BR in F3 by lia; discriminate|reflexivity]).
  assert (LT : bm_size mr < Z.of_nat (f_size (first_node nodes))).
  { rewrite S, SZ. change (Z.of_nat (length nodes)) with (zlen nodes). lia. }
  exists m0, (bm_size mr), (inbuf rest be). split; [now rewrite p_mask_ok|]. split; [exact FS|]. split.
  - intros n x. now apply big_update_loops.
  - intro x. unfold from_wire_valid. rewrite (run_pbind _ _ _ _ _ (eq_trans (p_mask_ok host bm_empty _) E)). cbn [run_flat]. cbn [rgood rerr inbuf negb]. cbv zeta. cbn [v_nodes v_cells].
    assert (LC : Z.of_nat (length cells) = zlen nodes) by (pose proof (good_cells_length _ _ C) as X; unfold zlen; unfold cell in *; rewrite <- X; reflexivity).
    unfold cell in *. rewrite LC. fold mr. rewrite FS. unfold dbind. rewrite run_flat_bind.
    match goal with |- context [let '(_, _) := ?R in _] => destruct R as [[y| | |] b2] eqn:ER end; cbn [fst run_flat pok]; try discriminate.
    exfalso. eapply (big_update_loops (dec_node fuel host) mr nodes W BR LT). etransitivity; [exact (f_equal fst ER)|reflexivity].
Qed.
(** Such a value: a structure of 65536 members named a, aa, aaa, ... *)
Definition wide (k : nat) : member :=
  Mem tc_Struct [] [] (map (fun i => Mem tc_Int8 (repeat 97 (S i)) [] []) (seq 0 k)).
Lemma wide_good k : Z.of_nat k <= 0xffffffff -> good_type (wide k).
Proof.
  intro H. split; [|split].
  - unfold wide. cbn [describable]. change (has_members tc_Struct) with true. cbv iota. rewrite !andb_true_iff. split; [split; [reflexivity|]|].
    + apply Z.leb_le. unfold zlen. rewrite map_length, seq_length. exact H.
    + apply forallb_forall. intros c I. apply in_map_iff in I as (i & <- & I). apply in_seq in I. cbn [m_name describable]. change (has_members tc_Int8) with false. cbv iota.
      apply andb_true_iff. split; [|reflexivity]. unfold wire_str, zlen. rewrite repeat_length. apply Z.leb_le. lia.
  - unfold wide. cbn [distinct_struct_names]. split.
    + intros _. rewrite map_map. cbn [m_name].
      apply (NoDup_map_inv (fun s => @length Z s)). rewrite map_map. erewrite map_ext by (intro; apply repeat_length). rewrite seq_shift. apply seq_NoDup.
    + generalize (seq 0 k). induction l as [|i l IH]; cbn [map fold_right]; [exact I|]. split; [|exact IH]. cbn. split; [intros _; constructor|exact I].
  - unfold wide. cbn [all_names]. generalize (seq 0 k). induction l as [|i l IH]; cbn [map fold_right]; [exact I|]. split; [|exact IH].
    split; [|exact I]. cbn [m_name]. intro H1. apply (repeat_spec (S i) 97 dot) in H1. discriminate.
Qed.
Lemma wide_nodes k : length (flatten (wide k)) = S k.
Proof.
  pose proof (plist_length (wide k)) as L. pose proof (flatten_length (wide k)) as L1. unfold wide in L at 1. rewrite plist_eq in L. change (tc_Struct =? tc_Struct) with true in L. cbv iota in L.
  assert (G : forall l off, length (plist_from off (map (fun i => Mem tc_Int8 (repeat 97 (S i)) [] []) l)) = length l).
  { induction l as [|i l IH]; intro off; [reflexivity|]. cbn [map plist_from length]. rewrite app_length, map_length, IH. reflexivity. }
  rewrite G, seq_length in L. lia.
Qed.
Example C12_big_update_refuted_satisfiable : exists v, usable v /\ 2 ^ 16 <= zlen (v_nodes v) < 2 ^ 62.
Proof.
  assert (X : exists k, Z.of_nat k = 65535) by (exists (Z.to_nat 65535); apply Z2Nat.id; lia). destruct X as [k K].
  destruct (C12_value_of_received_type (wide k)) as [(cells & _ & U & _)|H].
  - apply wide_good. lia.
  - exists (Val (flatten (wide k)) cells). split; [exact U|]. cbn [v_nodes]. unfold zlen. rewrite wide_nodes. lia.
  - destruct (C12_value_of_good_type (wide k)) as [c E]; [apply wide_good; lia|]. congruence.
Qed.

(** ** C13 *)

(** A program which did not fault does the same if more bytes follow. *)
Lemma run_flat_extend {A} (p : rprog A) : forall b x b' r, run_flat p b = (x, b') -> rerr b' = false ->
  run_flat p (RB (rd b ++ r) (rbe b) (rerr b)) = (x, RB (rd b' ++ r) (rbe b') (rerr b')).
Proof.
  assert (ST : forall (q : rprog A) b x b', run_flat q b = (x, b') -> rerr b' = false -> rerr b = false).
  { intros q b x b' E G. pose proof (run_flat_safe q b) as [_ S]. rewrite E in S. cbn [snd] in S. destruct (rerr b); [|reflexivity]. destruct (S eq_refl). congruence. }
  assert (EN : forall n b r, rensure n b = true -> rensure n (RB (rd b ++ r) (rbe b) (rerr b)) = true /\
     firstn (Z.to_nat n) (rd b ++ r) = firstn (Z.to_nat n) (rd b) /\ skipn (Z.to_nat n) (rd b ++ r) = skipn (Z.to_nat n) (rd b) ++ r).
  { unfold rensure, zlen. intros n b r H. cbn [rd rerr]. rewrite app_length. apply andb_true_iff in H as [H1 H2]. split; [apply andb_true_iff; split; [exact H1|lia]|].
    rewrite firstn_app, skipn_app. replace (Z.to_nat n - length (rd b))%nat with 0%nat by lia. cbn [firstn skipn]. now rewrite app_nil_r. }
  induction p as [a|n k IH|n k IH|k IH|k IH|be k IH|k IH]; intros b x b' r E G; cbn [run_flat] in *.
  - now injection E as <- <-.
  - destruct (rensure n b) eqn:RE.
    + destruct (EN n b r RE) as (R1 & R2 & R3). rewrite R1. cbn [rd]. rewrite R2. unfold radvance at 1. cbn [rd rbe rerr]. rewrite R3.
      exact (IH _ _ _ _ r E G).
    + apply ST in E; [discriminate|exact G].
  - destruct (rensure n b) eqn:RE.
    + destruct (EN n b r RE) as (R1 & R2 & _). rewrite R1. cbn [rd]. rewrite R2. exact (IH _ _ _ _ r E G).
    + apply ST in E; [discriminate|exact G].
  - apply ST in E; [discriminate|exact G].
  - exact (IH _ _ _ _ r E G).
  - exact (IH _ _ _ r E G).
  - exact (IH _ _ _ _ r E G).
Qed.
Lemma refuses_prefix {A} (p : rprog A) x e e1 e2 be : run_flat p (inbuf e be) = (x, inbuf [] be) -> e = e1 ++ e2 -> e2 <> [] ->
  rerr (snd (run_flat p (inbuf e1 be))) = true.
Proof.
  intros E -> NE. destruct (run_flat p (inbuf e1 be)) as [y b'] eqn:E1. cbn [snd]. destruct (rerr b') eqn:G; [reflexivity|exfalso].
  pose proof (run_flat_extend p _ _ _ e2 E1 G) as X. cbn [rd rbe rerr inbuf] in X. unfold inbuf in E. rewrite E in X. injection X as _ X _ _.
  symmetry in X. apply app_eq_nil in X as [_ X]. contradiction.
Qed.

Lemma filled_contents nodes cells old : oks nodes cells -> kinds_for nodes old ->
  map (fun c => (false, unmark_sto contents (snd c))) (filled nodes old cells)
  = map (fun p => (false, unmark_sto contents (recv_sto received (fst p) (snd (snd p))))) (combine nodes cells).
Proof.
  intro OK0. revert old. induction OK0 as [|d [vl s] nodes cells H _ IH]; intros old K; inversion K as [|? [vo so] ? old' K1 K2]; subst; [reflexivity|].
  cbn [filled combine map fst snd] in *. rewrite IH by exact K2. f_equal. destruct (Z.eqb_spec (f_code d) tc_Struct) as [E|N]; [|reflexivity].
  cbn [snd]. now rewrite (kind_struct d so K1 E), (node_ok_struct d s H E).
Qed.
Lemma received_contents nodes cells : length cells = length nodes -> contents (received (Val nodes cells))
  = Val nodes (map (fun p => (false, unmark_sto contents (recv_sto received (fst p) (snd (snd p))))) (combine nodes cells)).
Proof.
  intro L. cbn [received contents]. f_equal.
  generalize (f_code (first_node nodes) =? tc_Struct) as bb. revert cells L. generalize nodes. clear nodes.
  induction nodes as [|d nodes IH]; intros [|[vl s] cells] L bb; try discriminate; [reflexivity|]. cbn [map combine fst snd]. rewrite IH by (cbn [length] in L; lia). reflexivity.
Qed.
Lemma full_contents m v old : value_of m v -> storage_for m old ->
  contents (Val (flatten m) (filled_field (flatten m) (v_cells old) (v_cells v))) = contents (received v).
Proof.
  intros (G & V & C) (S1 & S2). destruct v as [nodes cells]. cbn [v_nodes v_cells] in *. subst nodes. inversion C as [n c OK0]; subst.
  rewrite received_contents by exact (pairs_length _ _ _ OK0). cbn [contents]. f_equal.
  pose proof (sized_lay m (good_describable m G) (good_sized m G)) as LY. unfold filled_field.
  destruct (Z.eqb_spec (f_code (first_node (flatten m))) tc_Struct) as [E|N].
  - now apply filled_contents.
  - inversion LY as [x X1 X2|x kids X1 X2 X3]; [|rewrite <- H in N; contradiction]. rewrite <- H in *.
    inversion OK0 as [|? [vl s] ? ? H1x H2x]; subst. inversion H2x; subst. inversion S2 as [|? [vo so] ? ? H3x H4x]; subst. reflexivity.
Qed.

Lemma plain_received v : plain_value v -> cells_ok v -> contents (received v) = contents v.
Proof.
  revert v. apply (value_part_ind (fun v => plain_value v -> cells_ok v -> contents (received v) = contents v)).
  intros nodes cells IH P C. inversion P as [n c PC]; subst. inversion C as [n c CC]; subst.
  rewrite received_contents by exact (pairs_length _ _ _ CC). cbn [contents]. f_equal.
  clear P C. revert IH CC. induction PC as [|d [vl s] nodes cells H _ IHc]; intros IH CC; [reflexivity|].
  inversion CC as [|? ? ? ? C1 C2]; subst. cbn [combine map fst snd] in *. rewrite IHc; [|intros c v' I; apply IH; now right|exact C2]. f_equal. f_equal.
  specialize (IH (vl, s)). cbn [snd] in IH.
  destruct H as [d s L|d i v PV|d l NU PL].
  - destruct s as [| | | | | |[[i v]|]|[| | |l]]; try contradiction; reflexivity.
  - cbn [recv_sto unmark_sto]. rewrite IH; [reflexivity|now left|constructor|exact PV|]. inversion C1; subst; assumption.
  - cbn [recv_sto unmark_sto]. f_equal. f_equal. rewrite map_map. apply map_ext_in. intros [v|] I; [|reflexivity].
    unfold recv_elem. replace (f_code d =? tc_UnionA) with false by lia. cbn [option_map]. f_equal.
    rewrite Forall_forall in PL. apply IH; [now left|now constructor|now apply (PL (Some v))|].
    inversion C1 as [| | | | | | | | | | | | |? ? HC HF HE|? ? HC HF HE]; subst; rewrite Forall_forall in HE; now apply (HE (Some v) I).
Qed.

(** C13: a value of any type [m], whoever sends it and into whatever storage
    for that type it is decoded, whatever follows: exactly its bytes are
    consumed; each field holds what was sent ([received] spells out the two
    normalisations: arrays of Union arrive as arrays of the selected members,
    null arrays as empty arrays); each non-Struct field of a Struct is marked;
    the type cache is unchanged. *)
Theorem C13_full_value_roundtrip : forall be m v, value_of m v ->
  exists e, (forall host pre, to_wire_full host v (outbuf pre be) = OK (outbuf (pre ++ e) be)) /\
  forall host old fuel cache rest, storage_for m old -> (length e < fuel)%nat ->
  exists v', run_flat (from_wire_full fuel host old cache) (inbuf (e ++ rest) be) = (DOK (v', cache), inbuf rest be) /\
    v_nodes v' = flatten m /\ contents v' = contents (received v) /\
    (m_code m = tc_Struct -> forall j d, nth_error (flatten m) j = Some d -> f_code d <> tc_Struct ->
       exists s, nth_error (v_cells v') j = Some (true, s)).
Proof.
  intros be m v V. exists (encv be v). split; [intros host pre; exact (usable_sends host be v (value_of_usable m v V) pre)|].
  intros host old fuel cache rest ST F. eexists. split; [exact (from_wire_full_in host be v m old fuel rest cache V ST F)|].
  cbn [v_nodes v_cells]. split; [reflexivity|]. split; [now apply full_contents|].
  intros MC j d ED NS. destruct V as (G & V & C). destruct ST as (S1 & S2). destruct v as [nodes cells]. cbn [v_nodes v_cells] in *. subst nodes. inversion C as [n c OK0]; subst.
  unfold filled_field. rewrite flatten_hd_code, MC, Z.eqb_refl.
  assert (J : (j < length (flatten m))%nat) by (apply nth_error_Some; congruence).
  pose proof (pairs_length _ _ _ OK0) as L1. pose proof (pairs_length _ _ _ S2) as L2.
  destruct (nth_error cells j) as [[vs ss]|] eqn:EC; [|apply nth_error_None in EC; unfold cell in *; lia].
  destruct (nth_error (v_cells old) j) as [[vo so]|] eqn:EO; [|apply nth_error_None in EO; unfold cell in *; lia].
  rewrite (filled_nth _ _ _ j d vo so vs ss ED EO EC). replace (f_code d =? tc_Struct) with false by lia. eauto.
Qed.

(** For values without arrays of Union and null arrays, "what was sent" is the
    value itself. *)
Theorem C13_contents_preserved : forall m v, value_of m v -> plain_value v -> contents (received v) = contents v.
Proof. intros m v (_ & _ & C) P. now apply plain_received. Qed.

(** A truncated value is refused. *)
Theorem C13_truncation_detected : forall be m v, value_of m v ->
  exists e, (forall host pre, to_wire_full host v (outbuf pre be) = OK (outbuf (pre ++ e) be)) /\
  forall host old fuel cache e1 e2, storage_for m old -> (length e < fuel)%nat -> e = e1 ++ e2 -> e2 <> [] ->
  rerr (snd (run_flat (from_wire_full fuel host old cache) (inbuf e1 be))) = true.
Proof.
  intros be m v V. exists (encv be v). split; [intros host pre; exact (usable_sends host be v (value_of_usable m v V) pre)|].
  intros host old fuel cache e1 e2 ST F E NE. pose proof (from_wire_full_in host be v m old fuel [] cache V ST F) as D. rewrite app_nil_r in D.
  eapply refuses_prefix; eauto.
Qed.

(** A value sent with its type, as replies to INIT and RPC are. *)
Theorem C13_type_and_value_roundtrip : forall be m v, value_of m v -> (levels m <= 21)%nat ->
  exists et ev, (forall host pre, to_wire_nodes host (flatten m) (outbuf pre be) = OK (outbuf (pre ++ et) be)) /\
  (forall host pre, to_wire_full host v (outbuf pre be) = OK (outbuf (pre ++ ev) be)) /\
  forall host fuel cache rest, (length ev < fuel)%nat ->
  run_flat (from_wire_type_value fuel host cache) (inbuf (et ++ ev ++ rest) be) = (DOK (Some (Some (received v)), cache), inbuf rest be).
Proof.
  intros be m v V L. exists (enc_type be m), (encv be v).
  pose proof V as (G & VN & C). pose proof (good_describable m G) as D. pose proof (good_sized m G) as S.
  split; [intros; now apply to_wire_nodes_out|]. split; [intros host pre; exact (usable_sends host be v (value_of_usable m v V) pre)|].
  intros host fuel cache rest F. unfold from_wire_type_value, from_wire_type.
  destruct (value_new_spec m (flatten m) D) as [V1 _]; [reflexivity|]. specialize (V1 S).
  erewrite run_dbind.
  2:{ erewrite run_pbind by (rewrite p_desc_ok; apply (decodes_all host be m D 21%nat); exact L). cbn [run_flat fst snd]. cbn [rgood rerr inbuf negb].
      destruct (flatten_cons m) as (d & r & E & _). rewrite E. cbn [is_nil]. rewrite <- E, V1. reflexivity. }
  cbn [fst snd run_flat]. cbn [rgood rerr inbuf negb].
  assert (ST : storage_for m (Val (flatten m) (map (fun d => (false, init_sto d)) (flatten m)))).
  { split; [reflexivity|]. apply init_kinds. now apply nodes_init. }
  erewrite run_dbind by (exact (from_wire_full_in host be v m _ fuel rest cache V ST F)). cbn [fst snd run_flat pok v_cells].
  destruct v as [nodes cells]. cbn [v_nodes v_cells] in *. subst nodes. inversion C as [n c OK0]; subst. rewrite filled_received; auto. now apply sized_lay.
Qed.

(** Whatever was received can be sent on: no abort in the encoder. *)
Theorem C13_usable_values_encodable : forall be v, usable v ->
  exists e, forall host pre, to_wire_full host v (outbuf pre be) = OK (outbuf (pre ++ e) be).
Proof. intros be v U. exists (encv be v). intros host pre. exact (usable_sends host be v U pre). Qed.

(** But an array of Union which was received, and is sent on unchanged, can not
    be decoded: its elements lost their selectors (src/dataencode.cpp:361-383, 640-668). *)
Definition ua_type : member := Mem tc_Struct [] [] [Mem tc_UnionA [97] [] [Mem tc_UInt8 [98] [] []; Mem tc_UInt8 [99] [] []]].
Definition ua_union : list fdesc := f_members (nth 1 (flatten ua_type) (fd_new tc_Null)).
Definition ua_value : value :=
  Val (flatten ua_type) [(false, SNull);
    (true, SArr (AVals [Some (Val ua_union [(false, SSel (Some (1%nat, Val (sub_desc 1 (f_members (first_node ua_union))) [(false, SUInt 7)])))])]))].
Theorem C13_forwarded_union_array_refuted :
  value_of ua_type ua_value /\
  exists e e', to_wire_full false ua_value (outbuf [] false) = OK (outbuf e false) /\
    run_flat (from_wire_type_value 100 false []) (inbuf (enc_type false ua_type ++ e) false) = (DOK (Some (Some (received ua_value)), []), inbuf [] false) /\
    to_wire_full false (received ua_value) (outbuf [] false) = OK (outbuf e' false) /\
    rerr (snd (run_flat (from_wire_full 100 false (received ua_value) []) (inbuf e' false))) = true.
Proof.
  split.
  - split; [|split; [reflexivity|]].
    + repeat apply conj; try reflexivity; vm_compute; intuition; repeat constructor; cbn in *; intuition discriminate.
    + constructor. constructor; [apply ok_struct; reflexivity|]. constructor; [|constructor]. apply ok_elems; [right; reflexivity|vm_compute; discriminate|].
      constructor; [|constructor]. intros v E. injection E as <-. split; [reflexivity|]. constructor. constructor; [|constructor].
      eapply ok_union; [reflexivity|right; left; reflexivity|reflexivity|]. constructor. constructor; [|constructor]. eapply ok_uint; [reflexivity|]. cbn. split; [lia|reflexivity].
  - eexists. eexists. split; [vm_compute; reflexivity|]. split; [vm_compute; reflexivity|]. split; [vm_compute; reflexivity|]. vm_compute. reflexivity.
Qed.

(** ** C14 *)

(** A partial update (of all marked fields, or of the marked fields among those
    requested by [mask]): exactly the fields sent are replaced and marked. *)
Theorem C14_partial_update_roundtrip : forall be m v old mask,
  value_of m v -> storage_for m old -> m_code m = tc_Struct -> zlen (flatten m) < 2 ^ 16 -> mask_fits (flatten m) mask ->
  exists e new,
    (forall host pre, to_wire_valid host v mask (outbuf pre be) = OK (outbuf (pre ++ e) be)) /\
    (forall host fuel cache rest, (length e < fuel)%nat ->
      run_flat (from_wire_valid fuel host old cache) (inbuf (e ++ rest) be) = (DOK (Val (flatten m) new, cache), inbuf rest be)) /\
    updated (flatten m) (v_cells v) mask (v_cells old) new.
Proof.
  intros be m v old mask V S MC L F. destruct (valid_round be v m old mask V S MC L F) as (e & new & E & D & U).
  exists e, new. split; [exact E|]. split; [intros; now apply D|exact U].
Qed.
Theorem C14_truncation_detected : forall be m v old mask,
  value_of m v -> storage_for m old -> m_code m = tc_Struct -> zlen (flatten m) < 2 ^ 16 -> mask_fits (flatten m) mask ->
  exists e, (forall host pre, to_wire_valid host v mask (outbuf pre be) = OK (outbuf (pre ++ e) be)) /\
  forall host fuel cache e1 e2, (length e < fuel)%nat -> e = e1 ++ e2 -> e2 <> [] ->
  rerr (snd (run_flat (from_wire_valid fuel host old cache) (inbuf e1 be))) = true.
Proof.
  intros be m v old mask V S MC L F. destruct (valid_round be v m old mask V S MC L F) as (e & new & E & D & U).
  exists e. split; [exact E|]. intros host fuel cache e1 e2 FU EE NE. specialize (D host fuel [] cache FU). rewrite app_nil_r in D. eapply refuses_prefix; eauto.
Qed.
(** Sending every mark (no request mask), then decoding into a fresh value of
    the type, gives the contents of each marked field. *)

(** ** Non-vacuity *)

(** A structure with an integer, a nested structure with a string and a Union,
    an Any and an array of structures with a null element. *)
Definition ex_elem : member := Mem tc_StructA [101] [] [Mem tc_Int16 [120] [] []].
Definition ex_type : member :=
  Mem tc_Struct [] [109] [Mem tc_Int32 [97] [] []; Mem tc_Struct [98] [] [Mem tc_String [115] [] []; Mem tc_Union [117] [] [Mem tc_Float64 [102] [] []; Mem tc_BoolA [103] [] []]];
    Mem tc_Any [99] [] []; ex_elem].
Definition ex_union : fdesc := nth 4 (flatten ex_type) (fd_new tc_Null).
Definition ex_desc : fdesc := nth 6 (flatten ex_type) (fd_new tc_Null).
Definition ex_value : value :=
  Val (flatten ex_type)
    [(false, SNull); (true, SInt (-5)); (false, SNull); (true, SStr [104; 105]);
     (false, SSel (Some (1%nat, Val (sub_desc 1 (f_members ex_union)) [(false, SArr (APod tc_BoolA [1; 0]))])));
     (false, SSel (Some (0%nat, Val (flatten (Mem tc_UInt16 [] [] [])) [(false, SUInt 300)])));
     (true, SArr (AVals [None; Some (Val (f_members ex_desc) [(false, SNull); (false, SInt 2)])]))].
Lemma ex_value_ok : value_of ex_type ex_value.
Proof.
  split; [|split; [reflexivity|]].
  - repeat apply conj; try reflexivity; vm_compute; intuition; repeat constructor; cbn in *; intuition discriminate.
  - constructor. repeat (apply Forall2_cons; [|]); [..|apply Forall2_nil]; cbn [snd].
    + apply ok_struct. reflexivity.
    + eapply ok_int; [reflexivity|vm_compute; intuition discriminate].
    + apply ok_struct. reflexivity.
    + apply ok_str; [reflexivity|vm_compute; discriminate].
    + eapply ok_union; [reflexivity|right; left; reflexivity|reflexivity|]. constructor. constructor; [|constructor].
      eapply ok_pod; [reflexivity|repeat (apply Forall_cons; [vm_compute; intuition discriminate|]); apply Forall_nil|vm_compute; discriminate].
    + apply (ok_any _ (Mem tc_UInt16 [] [] [])); [reflexivity|repeat apply conj; try reflexivity; vm_compute; intuition; constructor|cbn; lia|reflexivity|].
      constructor. constructor; [|constructor]. eapply ok_uint; [reflexivity|vm_compute; intuition discriminate].
    + apply ok_elems; [left; reflexivity|vm_compute; discriminate|]. constructor; [discriminate|]. constructor; [|constructor].
      intros v E. injection E as <-. split; [reflexivity|]. constructor. constructor; [apply ok_struct; reflexivity|]. constructor; [|constructor].
      eapply ok_int; [reflexivity|vm_compute; intuition discriminate].
Qed.
Example C13_satisfiable : value_of ex_type ex_value /\ plain_value ex_value /\ usable ex_value /\ (levels ex_type <= 21)%nat /\ storage_for ex_type ex_value.
Proof.
  split; [exact ex_value_ok|]. split.
  - constructor. repeat (apply Forall2_cons; [|]); [..|apply Forall2_nil]; cbn [snd]; try (apply plain_leaf; exact I).
    + apply plain_sel. constructor. constructor; [|constructor]. apply plain_leaf. exact I.
    + apply plain_sel. constructor. constructor; [|constructor]. apply plain_leaf. exact I.
    + apply plain_vals; [discriminate|]. constructor; [discriminate|]. constructor; [|constructor]. intros v E. injection E as <-.
      constructor. repeat (constructor; [apply plain_leaf; exact I|]). constructor.
  - split; [exact (value_of_usable _ _ ex_value_ok)|]. split; [cbn; lia|]. split; [reflexivity|].
    repeat (apply Forall2_cons; [eexists; split; [reflexivity|exact I]|]). apply Forall2_nil.
Qed.
Example C14_satisfiable : m_code ex_type = tc_Struct /\ zlen (flatten ex_type) < 2 ^ 16 /\
  sent (flatten ex_type) (v_cells ex_value) None 3 /\ ~ sent (flatten ex_type) (v_cells ex_value) None 5 /\
  mask_fits (flatten ex_type) (bm_init [1; 6] 7) /\ bm_init [1; 6] 7 <> None.
Proof.
  split; [reflexivity|]. split; [reflexivity|]. split.
  - exists 3%nat. split; [|now left]. split; [eexists; reflexivity|exact I].
  - split.
    + intros (k & [[s SK] _] & [->|IN]); [discriminate|].
      assert (LY : lay (flatten ex_type)) by (destruct ex_value_ok as [G _]; apply sized_lay; [now apply good_describable|now apply good_sized]).
      assert (KL : (k < length (flatten ex_type))%nat).
      { change (length (flatten ex_type)) with (length (v_cells ex_value)). apply nth_error_Some. congruence. }
      apply sz_inside in IN; [|exact LY|exact KL].
      do 7 (destruct k as [|k]; [vm_compute in SK; try discriminate; vm_compute in IN; lia|]). vm_compute in KL. lia.
    + replace (bm_init [1; 6] 7) with (Some (BM [66] 7)) by (vm_compute; reflexivity). split; [|discriminate].
      split; [|reflexivity]. split; [constructor; [lia|constructor]|]. cbn [bm_size bm_words]. unfold zlen. cbn [length]. lia.
Qed.

Print Assumptions C07_value_decoders_safe.
Print Assumptions C08_value_decoders_segment_independent.
Print Assumptions C12_value_of_received_type.
Print Assumptions C12_value_of_good_type.
Print Assumptions C12_hostile_values_harmless.
Print Assumptions C12_hostile_type_value_harmless.
Print Assumptions C12_hostile_update_harmless_partial.
Print Assumptions C12_big_update_refuted.
Print Assumptions C13_full_value_roundtrip.
Print Assumptions C13_contents_preserved.
Print Assumptions C13_truncation_detected.
Print Assumptions C13_type_and_value_roundtrip.
Print Assumptions C13_usable_values_encodable.
Print Assumptions C13_forwarded_union_array_refuted.
Print Assumptions C14_partial_update_roundtrip.
Print Assumptions C14_truncation_detected.
