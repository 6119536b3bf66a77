(** Theorems on bit masks: C09, C10, C57. *)
From Coq Require Import ZArith List Bool Lia ZifyBool ZifyNat Sorted.
From Verif Require Import Base BaseProofs WireModel WireSpec WireProofs SegModel SegSpec SegProofs SegProps BitMaskModel BitMaskSpec BitMaskProofs.
Import ListNotations.
Local Open Scope Z_scope.

Lemma bm_wf_words m : bm_wf m -> Forall (fun w => 0 <= w < 2 ^ 64) (bm_words m).
Proof. now intros [H _]. Qed.

(** C09: every mask (up to 2^32-1 bytes) is received with the same bits in both
    byte orders, whatever follows it in the message, whatever the host byte
    orders of sender and receiver; and no shorter encoding would do: the last
    byte's worth of bit numbers contains a set bit. *)
Theorem C09_mask_bits_roundtrip : forall host host' be m,
  bm_wf m -> 8 * zlen (bm_words m) <= 0xffffffff ->
  exists e, (forall pre, to_wire_mask host m (outbuf pre be) = outbuf (pre ++ e) be) /\
  forall rest, exists m' nbytes,
    from_wire_mask host' bm_empty (inbuf (e ++ rest) be) = (m', inbuf rest be) /\
    (forall i, 0 <= i -> mbit m' i = mbit m i) /\
    bm_size m' = (8 * nbytes) mod 2 ^ 16 /\
    (forall i, 8 * nbytes <= i -> mbit m i = false) /\
    (0 < nbytes -> exists i, 8 * (nbytes - 1) <= i < 8 * nbytes /\ mbit m i = true).
Proof.
  intros host host' be m W L. exists (enc_mask be m). split.
  - intro pre. apply to_wire_mask_out; auto. now apply bm_wf_words.
  - intro rest. destruct (from_wire_mask_in host' m rest be (bm_wf_words m W) L)
      as (m' & nb & R & B & F & N & S & Z8 & H0 & H1).
    exists m', nb. repeat apply conj; auto.
Qed.

(** C09 for masks of at most 65528 bits: the received mask iterates over the
    same bits, and is itself well formed.  [_partial]: wider masks fail, see
    below. *)
Theorem C09_mask_roundtrip_partial : forall host host' be m,
  bm_wf m -> bm_clean m -> bm_size m <= 65528 -> 8 * zlen (bm_words m) <= 0xffffffff ->
  exists e, (forall pre, to_wire_mask host m (outbuf pre be) = outbuf (pre ++ e) be) /\
  forall rest, exists m',
    from_wire_mask host' bm_empty (inbuf (e ++ rest) be) = (m', inbuf rest be) /\
    bm_wf m' /\ bm_clean m' /\
    exists l, only_set (Z.to_nat (bm_size m)) m = Some l /\ only_set (Z.to_nat (bm_size m')) m' = Some l /\
      lists_set_bits m l.
Proof.
  intros host host' be m W C S L. destruct (C09_mask_bits_roundtrip host host' be m W L) as (e & E1 & E2).
  exists e. split; auto. intro rest.
  destruct (from_wire_mask_in host' m rest be (bm_wf_words m W) L) as (m' & nb & R & B & F & N & SZ & Z8 & H0 & H1).
  destruct (E2 rest) as (m2 & nb2 & R2 & _).
  assert (EQ : e = enc_mask be m).
  { pose proof (E1 []) as X. rewrite to_wire_mask_out in X by (auto; now apply bm_wf_words). inversion X. now rewrite !app_nil_l in *. }
  subst e.
  assert (NB : 8 * nb <= 65528).
  { destruct (Z_lt_le_dec 0 nb); [|lia]. destruct (H1 ltac:(lia)) as (i & I1 & I2).
    destruct (Z_lt_le_dec i (bm_size m)); [|rewrite C in I2 by lia; discriminate]. lia. }
  rewrite u_cast_id in SZ by (change (8 * Z.of_nat 2) with 16; lia).
  assert (W' : bm_wf m') by (repeat apply conj; auto; lia).
  assert (C' : bm_clean m').
  { intros i Hi. destruct (Z_lt_le_dec i 0).
    - unfold mbit. assert (E0 : i / 64 < 0) by (apply Z.div_lt_upper_bound; lia). lia.
    - rewrite B by lia. apply H0. lia. }
  exists m'. split; [exact R|]. split; [exact W'|]. split; [exact C'|].
  destruct (only_set_ok m W C) as (l & L1 & L2). destruct (only_set_ok m' W' C') as (l' & L1' & L2').
  exists l. repeat apply conj; auto; try apply L2.
  rewrite L1'. f_equal.
  assert (Same : forall i, In i l' <-> In i l).
  { intro i. destruct L2 as [_ L2], L2' as [_ L2'].
    destruct (Z_lt_le_dec i 0) as [Neg|Pos].
    - assert (Hneg : forall k (q : bmask) ls, bm_wf q -> bm_clean q -> only_set k q = Some ls -> ~ In i ls).
      { intros k q ls Wq Cq. unfold only_set, only_set_range.
        destruct (find_set_ok q 0 Wq Cq ltac:(lia)) as (r & R1 & R3). rewrite R1.
        assert (0 <= r) by (destruct R3 as [(A & _)|(A & _)]; [lia|destruct Wq as (_ & Wq & _); lia]).
        clear R1 R3. revert r H ls. induction k as [|k IHk]; intros r Hr ls; cbn [iter_from];
          (destruct (r =? bm_size q); [intro X; inversion X; subst; intros []|]); [discriminate|].
        destruct (find_set_ok q (r + 1) Wq Cq ltac:(lia)) as (r2 & Q1 & Q2). rewrite Q1.
        destruct (iter_from k q r2 (bm_size q)) as [l2|] eqn:E2'; [|discriminate].
        intro X; inversion X; subst. intros [Y|Y]; [lia|]. revert Y.
        apply (IHk r2); auto. destruct Q2 as [(A & _)|(A & _)]; [lia|destruct Wq as (_ & Wq & _); lia]. }
      split; intro X; exfalso; [eapply (Hneg _ m')|eapply (Hneg _ m)]; eauto.
    - rewrite L2, L2', B by lia. tauto. }
  clear - L2 L2' Same. destruct L2 as [S1 _], L2' as [S2 _].
  revert l S1 Same. induction S2 as [|x xs S2 IH Fx]; intros l S1 Same.
  - destruct l as [|y l]; auto. exfalso. apply (Same y). now left.
  - destruct S1 as [|y ys S1 Fy]; [exfalso; apply (Same x); now left|].
    assert (x = y).
    { assert (A : In x (y :: ys)) by (apply Same; now left). assert (D : In y (x :: xs)) by (apply Same; now left).
      destruct A as [A|A], D as [D|D]; auto.
      rewrite Forall_forall in Fx, Fy. specialize (Fx _ D). specialize (Fy _ A). lia. }
    subst y. f_equal. apply IH; auto. intro i. split; intro X.
    + assert (A : In i (x :: ys)) by (apply Same; now right). destruct A as [<-|A]; auto.
      rewrite Forall_forall in Fx. specialize (Fx _ X). lia.
    + assert (A : In i (x :: xs)) by (apply Same; now right). destruct A as [<-|A]; auto.
      rewrite Forall_forall in Fy. specialize (Fy _ X). lia.
Qed.

(** ... wider masks: a set bit numbered 65528 or more makes the received mask's
    16 bit size wrap around, and iterating it visits nothing. *)
Theorem C09_wide_mask_refuted :
  exists m e m',
    bm_wf m /\ bm_clean m /\ mbit m 65530 = true /\
    to_wire_mask false m (outbuf [] false) = outbuf e false /\
    from_wire_mask false bm_empty (inbuf e false) = (m', inbuf [] false) /\
    only_set 1 m' = Some [].
Proof.
  set (m := BM (repeat 0 1023 ++ [2 ^ 58]) 65535).
  assert (W : bm_wf m).
  { unfold bm_wf, m, zlen. cbn [bm_words bm_size]. rewrite app_length, repeat_length. repeat apply conj; try (cbn [length]; lia).
    apply Forall_app. split; [|repeat constructor; lia]. apply Forall_forall. intros x Hx. apply repeat_spec in Hx. lia. }
  assert (W1 : to_wire_mask false m (outbuf [] false) = outbuf (enc_mask false m) false).
  { rewrite to_wire_mask_out; auto. now apply bm_wf_words. unfold m, zlen. cbn [bm_words]. rewrite app_length, repeat_length. cbn [length]. lia. }
  exists m, (enc_mask false m), (fst (from_wire_mask false bm_empty (inbuf (enc_mask false m) false))).
  split; [exact W|]. split.
  { intros i Hi. unfold m in *. unfold mbit. cbn [bm_words bm_size] in *.
    destruct (Z.eq_dec (i / 64) 1023) as [E|E].
    - rewrite E. pose proof (Z.div_mod i 64 ltac:(lia)). pose proof (Z.mod_pos_bound i 64 ltac:(lia)).
      assert (i mod 64 = 63) by lia. rewrite H1. vm_compute. reflexivity.
    - rewrite nth_overflow; [apply Z.bits_0|]. rewrite app_length, repeat_length. cbn [length].
      assert (1023 <= i / 64) by (apply Z.div_le_lower_bound; lia). lia. }
  split; [vm_compute; reflexivity|]. split; [exact W1|].
  split; vm_compute; reflexivity.
Qed.

(** C10: findSet() *)
Theorem C10_find_set : forall m start, bm_wf m -> bm_clean m -> 0 <= start ->
  exists r, find_set m start = Some r /\ first_set m start r.
Proof. exact find_set_ok. Qed.

(** C10: iteration over onlySet() *)
Theorem C10_iteration : forall m, bm_wf m -> bm_clean m ->
  exists l, only_set (Z.to_nat (bm_size m)) m = Some l /\ lists_set_bits m l.
Proof. exact only_set_ok. Qed.

(** C10: how well formed, clean masks come about: created with a size, and bits
    below the size set and cleared; reading a bit agrees. *)
Theorem C10_construction :
  (forall n, 0 <= n < 2 ^ 16 -> bm_wf (bm_resize n bm_empty) /\ bm_clean (bm_resize n bm_empty) /\
    bm_size (bm_resize n bm_empty) = n /\ forall i, mbit (bm_resize n bm_empty) i = false) /\
  (forall m bit v, bm_wf m -> bm_clean m -> 0 <= bit < bm_size m ->
    exists m', bm_set m bit v = Some m' /\ bm_wf m' /\ bm_clean m' /\ bm_size m' = bm_size m /\
      forall i, 0 <= i -> mbit m' i = if i =? bit then v else mbit m i) /\
  (forall m bit, bm_wf m -> 0 <= bit < bm_size m -> bm_get m bit = Some (mbit m bit)).
Proof.
  repeat apply conj.
  - intros n H. destruct (wf_fresh n H) as [W S]. split; [exact W|]. repeat apply conj; auto.
    + intros i _. apply mbit_fresh. lia.
    + intro i. apply mbit_fresh. lia.
  - intros m bit v W C H. destruct (bm_set_ok m bit v W H) as (m' & S & W' & Z' & B).
    exists m'. split; auto. split; auto. split; [|split; auto].
    intros i Hi. destruct W' as (_ & W' & _). rewrite B by lia. replace (i =? bit) with false by lia. apply C. lia.
  - exact bm_get_ok.
Qed.

(** C10: the initializer list constructor *)
Theorem C10_initializer : forall bits nbits,
  0 <= nbits < 2 ^ 16 -> Forall (fun b => 0 <= b < 2 ^ 16 - 1) bits ->
  exists m, bm_init bits nbits = Some m /\ bm_wf m /\ bm_clean m /\ nbits <= bm_size m /\
    forall i, 0 <= i -> (mbit m i = true <-> In i bits).
Proof.
  intros bits nbits Hn F.
  assert (G : exists m n, bm_init bits nbits = Some m /\ bm_wf m /\ bm_size m = n /\ nbits <= n /\
    Forall (fun b => 0 <= b < n) bits /\ forall i, 0 <= i -> mbit m i = existsb (Z.eqb i) bits).
  { unfold bm_init. destruct bits as [|b bits].
    - destruct (wf_fresh nbits Hn) as [W S]. exists (bm_resize nbits bm_empty), nbits.
      split; auto. split; [exact W|]. repeat apply conj; auto; try lia. intros i _. cbn [existsb]. apply mbit_fresh. lia.
    - set (bs := b :: bits) in *. set (n := Z.max nbits (1 + fold_right Z.max 0 bs)).
      assert (FM : fold_right Z.max 0 bs < 2 ^ 16 - 1).
      { apply fold_max_bound'; [lia|]. eapply Forall_impl; [|exact F]. cbn. lia. }
      assert (Hn' : 0 <= n < 2 ^ 16) by lia.
      destruct (wf_fresh n Hn') as [W S].
      assert (F' : Forall (fun b => 0 <= b < bm_size (bm_resize n bm_empty)) bs).
      { rewrite S. apply Forall_forall. intros x Hx. pose proof (fold_max_le bs x Hx).
        rewrite Forall_forall in F. specialize (F x Hx). lia. }
      destruct (bm_set_all_ok bs _ W F') as (m' & A & W' & Z' & B).
      exists m', n. split; auto. split; [exact W'|]. rewrite S in *. repeat apply conj; auto; try lia.
      intros i Hi. rewrite B by auto. rewrite mbit_fresh by lia. apply orb_false_r. }
  destruct G as (m & n & A & W & S & L & F' & B).
  assert (EX : forall i, existsb (Z.eqb i) bits = true <-> In i bits).
  { intro i. rewrite existsb_exists. split.
    - intros (x & X1 & X2). apply Z.eqb_eq in X2. now subst.
    - intro X. exists i. split; auto. apply Z.eqb_refl. }
  exists m. split; auto. split; [exact W|]. repeat apply conj.
  - intros i Hi. destruct W as (_ & W2 & _). rewrite B by lia.
    destruct (existsb (Z.eqb i) bits) eqn:E; auto. apply EX in E.
    rewrite Forall_forall in F'. specialize (F' i E). lia.
  - lia.
  - intros i Hi. rewrite B by auto. apply EX.
Qed.

(** C10: iterating over a range [onlySet(a,b)] does not stop at b when b is not
    itself a set bit (src/bitmask.h:182-193): it never ends. *)
Theorem C10_range_iteration_refuted :
  exists m a b, bm_wf m /\ bm_clean m /\ 0 <= a < b /\ b < bm_size m /\
    (exists l, lists_set_bits m l) /\
    forall fuel, only_set_range fuel m a b = None.
Proof.
  destruct (C10_initializer [1; 5] 8 ltac:(lia) ltac:(repeat constructor; lia)) as (m & A & W & C & L & B).
  exists m, 0, 3. split; [exact W|]. split; [exact C|]. split; [lia|].
  vm_compute in A. inversion A; subst m. clear A. split; [vm_compute; reflexivity|].
  split.
  { exists [1; 5]. split; [repeat constructor|]. intros i Hi. symmetry. rewrite B by auto. tauto. }
  intro fuel. unfold only_set_range. set (m := BM [34] 8).
  assert (F0 : find_set m 0 = Some 1) by (vm_compute; reflexivity).
  assert (F2 : find_set m (1 + 1) = Some 5) by (vm_compute; reflexivity).
  assert (F6 : find_set m (5 + 1) = Some 8) by (vm_compute; reflexivity).
  assert (F9 : find_set m (8 + 1) = Some 8) by (vm_compute; reflexivity).
  assert (I8 : forall f, iter_from f m 8 3 = None).
  { induction f as [|f IH]; cbn [iter_from]; replace (8 =? 3) with false by reflexivity; auto. rewrite F9, IH. reflexivity. }
  rewrite F0. destruct fuel; [reflexivity|]. cbn [iter_from]. replace (1 =? 3) with false by reflexivity.
  rewrite F2. destruct fuel; [reflexivity|]. cbn [iter_from]. replace (5 =? 3) with false by reflexivity.
  rewrite F6, I8. reflexivity.
Qed.

(** C10: shrinking a mask keeps bits beyond the new size, findSet() then returns
    a number beyond size(). *)
Theorem C10_shrink_refuted :
  exists m n r, bm_wf m /\ bm_clean m /\ 0 <= n < bm_size m /\
    find_set (bm_resize n m) 0 = Some r /\ bm_size (bm_resize n m) < r.
Proof.
  destruct (C10_initializer [5] 8 ltac:(lia) ltac:(repeat constructor; lia)) as (m & A & W & C & L & B).
  exists m, 3, 5. split; [exact W|]. split; [exact C|]. vm_compute in A. inversion A. vm_compute. repeat split; auto; discriminate.
Qed.

(** C57: a mask expression of masks of equal size, evaluated, has exactly the
    bits which the logical combination has; == on clean masks is equality of
    size and bits. *)
Theorem C57_expression : forall n e, 0 <= n < 2 ^ 16 ->
  be_masks (fun m => bm_exact m /\ bm_size m = n) e ->
  exists m, be_eval e = Some m /\ bm_exact m /\ bm_size m = n /\
    forall i, 0 <= i < n -> mbit m i = be_bit e i.
Proof.
  intros n e Hn H. destruct (be_eval_ok n e Hn H) as (m & A & B & C & D). exists m.
  split; [exact A|]. split; [exact B|]. split; [exact C|]. intros i Hi. apply D.
  unfold nwords_of. pose proof (Z.div_mod (n + 63) 64 ltac:(lia)). pose proof (Z.mod_pos_bound (n + 63) 64 ltac:(lia)). lia.
Qed.

(** expressions of masks with different sizes are refused with an exception *)
Theorem C57_size_mismatch_refused : forall a b, bm_size a <> bm_size b ->
  be_eval (BEand (BEmask a) (BEmask b)) = None /\ be_eval (BEor (BEmask a) (BEmask b)) = None.
Proof. intros a b H. unfold be_eval. cbn [be_ok be_size andb]. replace (bm_size a =? bm_size b) with false by lia. auto. Qed.

Theorem C57_equality_partial : forall a b, bm_exact a -> bm_exact b -> bm_clean a -> bm_clean b ->
  exists r, bm_eqb a b = Some r /\
    (r = true <-> (bm_size a = bm_size b /\ forall i, 0 <= i -> mbit a i = mbit b i)).
Proof. exact bm_eqb_ok. Qed.

(** [!] leaves ones beyond the size, which == then sees. *)
Theorem C57_not_equality_refuted :
  exists a m b, bm_exact a /\ bm_clean a /\ bm_exact b /\ bm_clean b /\ be_eval (BEnot (BEmask a)) = Some m /\
    bm_size m = bm_size b /\ (forall i, 0 <= i < bm_size m -> mbit m i = mbit b i) /\
    bm_eqb m b = Some false.
Proof.
  exists (BM [1] 2), (BM [2 ^ 64 - 2] 2), (BM [2] 2).
  assert (E : forall w, 0 <= w < 4 -> bm_exact (BM [w] 2) /\ bm_clean (BM [w] 2)).
  { intros w Hw. split.
    - split; [|reflexivity]. unfold bm_wf, zlen. cbn. repeat split; try lia. repeat constructor; cbn; lia.
    - intros i Hi. cbn in Hi. unfold mbit. cbn [bm_words].
      destruct (Z.eq_dec (i / 64) 0) as [Q|Q].
      + rewrite Q. cbn [Z.to_nat nth]. pose proof (Z.div_mod i 64 ltac:(lia)). apply (testbit_high w 2); lia.
      + pose proof (Z.div_pos i 64). rewrite nth_overflow by (cbn [length]; lia). apply Z.bits_0. }
  repeat apply conj; try apply E; try lia; try (vm_compute; reflexivity).
  cbn [bm_size]. intros i Hi. assert (i = 0 \/ i = 1) as [->| ->] by lia; reflexivity.
Qed.

(** C07 and C08 for masks *)
Theorem C07_mask_decoder_safe : forall host m, safe_decoder (from_wire_mask host m).
Proof. exact safe_from_wire_mask. Qed.
Theorem C08_mask_decoder_segment_independent : forall host m, segment_independent (from_wire_mask host m).
Proof. intros. eapply program_segment_independent. apply p_mask_ok. Qed.

Example C09_nonvacuous : exists m, bm_init [1; 64; 70] 100 = Some m /\ bm_wf m /\ bm_clean m /\
  only_set 100 m = Some [1; 64; 70].
Proof.
  destruct (C10_initializer [1; 64; 70] 100 ltac:(lia) ltac:(repeat constructor; lia)) as (m & A & W & C & _).
  exists m. split; [exact A|]. split; [exact W|]. split; [exact C|]. vm_compute in A. inversion A. vm_compute. reflexivity.
Qed.
Example C57_nonvacuous : be_eval (BEor (BEmask (BM [5] 6)) (BEand (BEmask (BM [6] 6)) (BEmask (BM [3] 6)))) = Some (BM [7] 6).
Proof. vm_compute. reflexivity. Qed.

Print Assumptions C09_mask_bits_roundtrip.
Print Assumptions C09_mask_roundtrip_partial.
Print Assumptions C09_wide_mask_refuted.
Print Assumptions C10_find_set.
Print Assumptions C10_iteration.
Print Assumptions C10_construction.
Print Assumptions C10_initializer.
Print Assumptions C10_range_iteration_refuted.
Print Assumptions C10_shrink_refuted.
Print Assumptions C57_expression.
Print Assumptions C57_size_mismatch_refused.
Print Assumptions C57_equality_partial.
Print Assumptions C57_not_equality_refuted.
Print Assumptions C07_mask_decoder_safe.
Print Assumptions C08_mask_decoder_segment_independent.

(** C10: whatever bytes a peer sends as a mask, the received mask is well
    formed, and searching it stays within its words and never goes backwards:
    the result is size() or a set bit not below the start. *)
Theorem C10_received_mask_safe : forall host b start, is_bytes (rd b) -> 0 <= start ->
  let m := fst (from_wire_mask host bm_empty b) in
  bm_wf m /\
  exists r, find_set m start = Some r /\
    (r = bm_size m \/ (start <= r < 64 * zlen (bm_words m) /\ mbit m r = true)).
Proof.
  intros host b start B S m. pose proof (from_wire_mask_wf host b B) as W. split; [exact W|].
  now apply find_set_wf.
Qed.
Print Assumptions C10_received_mask_safe.
