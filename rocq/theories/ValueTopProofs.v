(** from_wire_full(), from_wire_type(), from_wire_type_value() and
    from_wire_valid() on arbitrary bytes. *)
From Coq Require Import ZArith List Bool Lia ZifyBool ZifyNat.
From Verif Require Import Base BaseProofs WireModel WireSpec WireProofs SegModel SegSpec SegProofs
  BitMaskModel BitMaskSpec BitMaskProofs TypeModel TypeSpec TypeProofs TypeNameProofs
  ValueModel ValueSpec LayoutProofs ValueTypeProofs ValueSafeProofs.
Import ListNotations.
Local Open Scope Z_scope.

Definition like (v v' : value) : Prop := usable v' /\ v_nodes v' = v_nodes v.

Lemma from_wire_full_good fuel host v ts b : usable v -> cache_ok ts -> is_bytes (rd b) -> (left b < fuel)%nat ->
  wp (from_wire_full fuel host v ts) b (fun r _ => res_ok (like v) r).
Proof.
  intros U CO B LT. destruct U as [m cells D S C]. unfold from_wire_full. cbn [v_nodes v_cells].
  eapply wp_res_dbind.
  { apply (dec_field_good _ fuel (dec_node_good host fuel)); auto using flatten_not_nil, flatten_typed. lia. }
  intros cells' ts' b' SS C' CO'. cbn [fst snd]. apply wp_pok; [|exact CO']. split; [|reflexivity]. now constructor.
Qed.

Definition made (o : option (option value)) : Prop := forall v, o = Some (Some v) -> usable v.
Lemma from_wire_type_good host ts b : cache_ok ts -> is_bytes (rd b) ->
  wp (from_wire_type host ts) b (fun r _ => res_ok made r).
Proof.
  intros CO B. unfold from_wire_type. apply wp_run. intros [nodes ts'] b' E S. cbn [fst snd].
  pose proof (from_wire_desc_types host 21 ts b CO B) as [C1 C2].
  rewrite <- p_desc_ok in C1, C2. rewrite E in C1, C2. cbn [fst snd] in C1, C2.
  unfold wp. cbn [run_flat]. unfold rgood. destruct (rerr b') eqn:G'; cbn [negb].
  - apply res_dok; [discriminate|exact C1].
  - specialize (C2 eq_refl). destruct (is_nil nodes) eqn:NN.
    + apply res_dok; [discriminate|exact C1].
    + destruct C2 as [->|(m & D & ->)]; [discriminate|].
      destruct (value_new_spec m (flatten m) D) as [V1 V2]; [reflexivity|].
      destruct (Nat.eq_dec (f_size (first_node (flatten m))) (length (flatten m))) as [SZ|SZ].
      * rewrite (V1 SZ). apply res_dok; [|exact C1]. intros v EV. injection EV as <-. constructor; auto.
        now apply new_cells_good.
      * rewrite (V2 SZ). apply res_throw.
Qed.
Lemma from_wire_type_value_good fuel host ts b : cache_ok ts -> is_bytes (rd b) -> (left b < fuel)%nat ->
  wp (from_wire_type_value fuel host ts) b (fun r _ => res_ok made r).
Proof.
  intros CO B LT. unfold from_wire_type_value. eapply wp_res_dbind; [now apply from_wire_type_good|].
  intros o ts' b' S M CO'. cbn [fst snd]. destruct o as [[v|]|]; try now apply wp_pok.
  unfold wp. cbn [run_flat]. destruct (rgood b'); cbn [negb]; [|now apply res_dok].
  match goal with |- res_ok ?P (fst (run_flat ?p ?b)) => change (wp p b (fun r _ => res_ok P r)) end.
  eapply wp_res_dbind.
  { apply from_wire_full_good; auto; [eapply safe_bytes; eauto|apply safe_left in S; lia]. }
  intros v' ts2 b2 S2 [U _] CO2. cbn [fst snd]. apply wp_pok; [|exact CO2]. intros x E. now inversion E; subst.
Qed.

Lemma good_cells_length nodes cells : good_cells nodes cells -> length nodes = length cells.
Proof. induction 1; cbn [length]; congruence. Qed.
Lemma Forall2_skipn {A B} (R : A -> B -> Prop) n a b : Forall2 R a b -> Forall2 R (skipn n a) (skipn n b).
Proof. intro H. revert n. induction H; intros [|n]; cbn [skipn]; auto. Qed.
Lemma Forall2_firstn {A B} (R : A -> B -> Prop) n a b : Forall2 R a b -> Forall2 R (firstn n a) (firstn n b).
Proof. intro H. revert n. induction H; intros [|n]; cbn [firstn]; auto. Qed.
Lemma Forall_skipn {A} (P : A -> Prop) n l : Forall P l -> Forall P (skipn n l).
Proof. revert l. induction n as [|n IH]; intros [|x l]; cbn; auto. inversion 1; subst. auto. Qed.

Lemma dec_bits_good node L m mt : node_good node L -> describable mt = true -> sized mt ->
  bm_wf m -> bm_size m = zlen (flatten mt) ->
  forall n bit cells ts b, good_cells (flatten mt) cells -> 0 <= bit -> (zlen (flatten mt) <= Z.of_nat n + bit) ->
  cache_ok ts -> is_bytes (rd b) -> (left b < L)%nat ->
  wp (dec_bits n node m bit (flatten mt) cells ts) b (fun r _ => res_ok (good_cells (flatten mt)) r).
Proof.
  intros G D SZ W MS. induction n as [|n IH]; intros bit cells ts b C BP N CO B LT; cbn [dec_bits]; rewrite SZ.
  { replace (Z.of_nat (length (flatten mt)) <=? bit) with true by (unfold zlen in N; lia). now apply wp_pok. }
  destruct (Z.leb_spec (Z.of_nat (length (flatten mt))) bit) as [X|X]; [now apply wp_pok|].
  cbv zeta. set (i := Z.to_nat bit).
  destruct (nth_error (flatten mt) i) as [d|] eqn:ED; [|apply nth_error_None in ED; lia].
  destruct (skipn_nth i _ d ED) as [rest ES].
  pose proof (lay_range _ i d (sized_lay mt D SZ) ED) as LR.
  assert (FN : first_node (skipn i (flatten mt)) = d) by (rewrite ES; reflexivity).
  eapply wp_res_dbind.
  { apply (dec_field_good node L G); auto.
    - now rewrite ES.
    - apply Forall_skipn, flatten_typed; assumption.
    - apply Forall2_skipn; assumption.
    - rewrite FN, skipn_length. lia. }
  intros part ts' b' S CP CO'. cbn [fst snd]. rewrite FN.
  destruct (find_set_wf m (bit + Z.of_nat (f_size d)) W ltac:(lia)) as (r & -> & R).
  pose proof (f_size_pos d) as FP.
  apply IH; auto.
  - unfold good_cells. rewrite <- (firstn_skipn i (flatten mt)). apply Forall2_app; [now apply Forall2_firstn|].
    destruct CP as [|x [vl s] nodes cs C1 C2]; [constructor|]. constructor; assumption.
  - unfold zlen in *. lia.
  - unfold zlen in *. lia.
  - eapply safe_bytes; eauto.
  - apply safe_left in S. lia.
Qed.

Lemma resized_wf bits m : Forall (fun w => 0 <= w < 2 ^ 64) (bm_words m) -> 0 <= bits < 2 ^ 16 -> bm_wf (bm_resize bits m) /\ bm_size (bm_resize bits m) = bits.
Proof.
  intros W1 H. rewrite bm_resize_words by lia. unfold bm_wf. cbn [bm_words bm_size].
  rewrite u_cast_id by (change (8 * Z.of_nat 2) with 16; lia). split; [|reflexivity]. split; [|split].
  - unfold vec_resize. apply Forall_app. split; [now apply Forall_firstn|].
    apply Forall_forall. intros x Hx. apply repeat_spec in Hx. lia.
  - lia.
  - assert (L : zlen (vec_resize (nwords_of bits) (bm_words m)) = nwords_of bits).
    { unfold zlen, vec_resize. rewrite app_length, firstn_length, repeat_length.
      assert (0 <= nwords_of bits) by (unfold nwords_of; apply Z.div_pos; lia). lia. }
    rewrite L. unfold nwords_of.
    pose proof (Z.div_mod (bits + 63) 64 ltac:(lia)). pose proof (Z.mod_pos_bound (bits + 63) 64 ltac:(lia)). lia.
Qed.

Lemma from_wire_valid_good fuel host v ts b : usable v -> zlen (v_nodes v) < 2 ^ 16 ->
  cache_ok ts -> is_bytes (rd b) -> (left b < fuel)%nat ->
  wp (from_wire_valid fuel host v ts) b (fun r _ => res_ok (like v) r).
Proof.
  intros U LN CO B LT. pose proof U as U0. destruct U as [mt cells D S C]. unfold from_wire_valid. cbn [v_nodes v_cells] in *.
  pose proof (good_cells_length _ _ C) as LC. unfold cell in *.
  apply wp_run. intros m0 b' E SS. rewrite p_mask_ok in E.
  pose proof (from_wire_mask_wf host b B) as W. rewrite E in W. cbn [fst] in W.
  unfold wp. cbn [run_flat]. destruct (rgood b'); cbn [negb]; [|apply res_dok; [split; auto|exact CO]].
  match goal with |- res_ok ?P (fst (run_flat ?p ?b)) => change (wp p b (fun r _ => res_ok P r)) end.
  destruct (resized_wf (Z.of_nat (length cells)) m0 (proj1 W) ltac:(unfold zlen in LN; lia)) as [W1 W2].
  destruct (find_set_wf (bm_resize (Z.of_nat (length cells)) m0) 0 W1 ltac:(lia)) as (r & -> & R).
  eapply wp_res_dbind.
  { apply (dec_bits_good _ fuel); auto using dec_node_good; unfold zlen in *; try lia.
    - eapply safe_bytes; eauto.
    - apply safe_left in SS. lia. }
  intros cells' ts' b2 S2 C' CO'. cbn [fst snd]. apply wp_pok; [|exact CO']. split; [|reflexivity]. now constructor.
Qed.

(** fuel beyond the bytes at hand makes no difference *)
Lemma from_wire_full_fuel f1 f2 host v ts b : is_bytes (rd b) -> (left b < f1)%nat -> (left b < f2)%nat ->
  run_flat (from_wire_full f1 host v ts) b = run_flat (from_wire_full f2 host v ts) b.
Proof.
  intros B L1 L2. unfold from_wire_full. apply ext_dbind.
  - apply (dec_field_ext _ _ (S (left b))); auto. apply dec_node_fuel; lia.
  - reflexivity.
Qed.
Lemma from_wire_type_value_fuel f1 f2 host ts b : is_bytes (rd b) -> (left b < f1)%nat -> (left b < f2)%nat ->
  run_flat (from_wire_type_value f1 host ts) b = run_flat (from_wire_type_value f2 host ts) b.
Proof.
  intros B L1 L2. unfold from_wire_type_value. apply ext_dbind; [reflexivity|].
  intros [o ts'] b' E S. cbn [fst snd].
  destruct o as [[v|]|]; try reflexivity. cbn [run_flat]. destruct (rgood b'); [|reflexivity]. cbn [negb].
  apply ext_dbind; [|reflexivity]. apply from_wire_full_fuel; [eapply safe_bytes; eauto| |]; apply safe_left in S; lia.
Qed.
Lemma dec_bits_ext n1 n2 L m : agree n1 n2 L -> forall n bit nodes cells ts b, is_bytes (rd b) -> (left b < L)%nat ->
  run_flat (dec_bits n n1 m bit nodes cells ts) b = run_flat (dec_bits n n2 m bit nodes cells ts) b.
Proof.
  intro A. induction n as [|n IH]; intros bit nodes cells ts b B LT; cbn [dec_bits]; destruct (_ <=? _); try reflexivity.
  cbv zeta. apply ext_dbind; [now apply (dec_field_ext n1 n2 L)|].
  intros [part ts'] b' E S. destruct (find_set _ _); [|reflexivity].
  apply IH; [eapply safe_bytes; eauto|apply safe_left in S; lia].
Qed.
Lemma from_wire_valid_fuel f1 f2 host v ts b : is_bytes (rd b) -> (left b < f1)%nat -> (left b < f2)%nat ->
  run_flat (from_wire_valid f1 host v ts) b = run_flat (from_wire_valid f2 host v ts) b.
Proof.
  intros B L1 L2. unfold from_wire_valid. apply ext_bind. intros m0 b' E S.
  cbn [run_flat]. destruct (rgood b'); [|reflexivity]. cbn [negb]. destruct (find_set _ _); [|reflexivity].
  apply ext_dbind; [|reflexivity]. apply (dec_bits_ext _ _ (Datatypes.S (left b))).
  - apply dec_node_fuel; lia.
  - eapply safe_bytes; eauto.
  - apply safe_left in S. lia.
Qed.
