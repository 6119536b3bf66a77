From Coq Require Import ZArith List Bool Lia ZifyBool ZifyNat Sorted.
From Verif Require Import Base BaseProofs WireModel WireSpec WireProofs SegModel SegSpec SegProofs BitMaskModel BitMaskSpec.
Import ListNotations.
Local Open Scope Z_scope.

(** ** arithmetic *)
Lemma lor_add a b : Z.land a b = 0 -> Z.lor a b = a + b.
Proof. intro H. rewrite Z.add_nocarry_lxor by assumption. now rewrite Z.lxor_lor. Qed.

Lemma land_shift_low a b n : 0 <= n -> 0 <= b < 2 ^ n -> Z.land (a * 2 ^ n) b = 0.
Proof.
  intros Hn Hb. apply Z.bits_inj'. intros i Hi. rewrite Z.land_spec, Z.bits_0.
  destruct (Z_lt_le_dec i n).
  - now rewrite Z.mul_pow2_bits_low.
  - replace b with (b mod 2 ^ n) by (apply Z.mod_small; lia).
    rewrite Z.mod_pow2_bits_high by lia. apply andb_false_r.
Qed.
Lemma lor_shift_low a b n : 0 <= n -> 0 <= b < 2 ^ n -> Z.lor (a * 2 ^ n) b = a * 2 ^ n + b.
Proof. intros. apply lor_add. now apply land_shift_low. Qed.

Lemma testbit_high w n i : 0 <= w < 2 ^ n -> 0 <= n <= i -> Z.testbit w i = false.
Proof.
  intros H Hi. replace w with (w mod 2 ^ n) by (apply Z.mod_small; lia).
  apply Z.mod_pow2_bits_high; lia.
Qed.

Lemma least_nat (P : nat -> bool) n : P n = true -> exists k, (k <= n)%nat /\ P k = true /\ forall j, (j < k)%nat -> P j = false.
Proof.
  revert P. induction n as [n IH] using lt_wf_ind. intros P H.
  destruct (existsb P (seq 0 n)) eqn:E.
  - apply existsb_exists in E as (j & Hj & Pj). apply in_seq in Hj.
    destruct (IH j ltac:(lia) P Pj) as (k & K1 & K2 & K3). exists k. repeat apply conj; auto. lia.
  - exists n. repeat apply conj; auto. intros j Hj.
    destruct (P j) eqn:Pj; auto. exfalso.
    assert (existsb P (seq 0 n) = true) by (apply existsb_exists; exists j; split; auto; apply in_seq; lia).
    congruence.
Qed.

(** the lowest set bit of a non-zero word *)
Lemma lowest_bit m : 0 < m -> exists k, 0 <= k /\ Z.testbit m k = true /\ forall j, 0 <= j < k -> Z.testbit m j = false.
Proof.
  intro H. destruct (least_nat (fun n => Z.testbit m (Z.of_nat n)) (Z.to_nat (Z.log2 m))) as (k & _ & K2 & K3).
  { pose proof (Z.log2_nonneg m). rewrite Z2Nat.id by lia. now apply Z.bit_log2. }
  exists (Z.of_nat k). repeat apply conj; auto; [lia|].
  intros j Hj. specialize (K3 (Z.to_nat j) ltac:(lia)). now rewrite Z2Nat.id in K3 by lia.
Qed.

Lemma low_zero_mod m k : 0 <= k -> (forall j, 0 <= j < k -> Z.testbit m j = false) -> m mod 2 ^ k = 0.
Proof.
  intros Hk H. apply Z.bits_inj'. intros i Hi. rewrite Z.bits_0.
  rewrite Z.testbit_mod_pow2 by lia. destruct (Z.ltb_spec i k); auto. now rewrite H.
Qed.

(** x & -x isolates the lowest set bit *)
Lemma isolate_lowest m k : 0 < m < 2 ^ 64 -> 0 <= k ->
  Z.testbit m k = true -> (forall j, 0 <= j < k -> Z.testbit m j = false) ->
  Z.land m (u_cast 8 (- m)) = 2 ^ k.
Proof.
  intros Hm Hk B L.
  assert (Hk64 : k < 64).
  { destruct (Z_lt_le_dec k 64); auto. rewrite (testbit_high m 64 k) in B by lia. discriminate. }
  pose proof (low_zero_mod m k Hk L) as M0.
  assert (P : 0 < 2 ^ k) by (apply Z.pow_pos_nonneg; lia).
  set (q := m / 2 ^ k). assert (Mq : m = q * 2 ^ k) by (unfold q; pose proof (Z.div_mod m (2 ^ k)); lia).
  assert (Q0 : Z.testbit q 0 = true) by (unfold q; rewrite Z.div_pow2_bits by lia; now rewrite Z.add_0_l).
  assert (Odd : exists r, q = 2 * r + 1).
  { rewrite Z.bit0_odd in Q0. apply Z.odd_spec in Q0. exact Q0. }
  destruct Odd as [r R].
  unfold u_cast. replace (8 * Z.of_nat 8) with 64 by reflexivity.
  apply Z.bits_inj'. intros i Hi.
  rewrite Z.land_spec, Z.testbit_mod_pow2 by lia. rewrite Z.pow2_bits_eqb by lia.
  assert (N : - m = (- q) * 2 ^ k) by lia. rewrite N. rewrite Mq.
  destruct (Z.eqb_spec k i) as [->|NE].
  - rewrite !Z.mul_pow2_bits by lia. rewrite Z.sub_diag, Q0. cbn [andb].
    replace (i <? 64) with true by lia. cbn [andb].
    rewrite Z.bit0_odd, Z.odd_opp, <- Z.bit0_odd. exact Q0.
  - destruct (Z_lt_le_dec i k).
    + rewrite (Z.mul_pow2_bits_low q) by lia. reflexivity.
    + rewrite !Z.mul_pow2_bits by lia.
      destruct (Z.ltb_spec i 64); [|apply andb_false_r]. cbn [andb].
      (* -q = lnot (q-1) and q-1 = 2r, q = 2r+1 differ only in bit 0 *)
      replace (- q) with (Z.lnot (q - 1)) by (unfold Z.lnot; lia).
      rewrite Z.lnot_spec by lia. rewrite R. replace (2 * r + 1 - 1) with (2 * r) by lia.
      replace (i - k) with (Z.succ (i - k - 1)) by lia.
      rewrite Z.testbit_odd_succ, Z.testbit_even_succ by lia.
      destruct (Z.testbit r _); reflexivity.
Qed.

Lemma bit_search_pow2 k : 0 <= k < 64 -> bit_search (2 ^ k) = k.
Proof.
  intro H. assert (A : forallb (fun n => bit_search (2 ^ Z.of_nat n) =? Z.of_nat n) (seq 0 64) = true) by (vm_compute; reflexivity).
  rewrite forallb_forall in A. specialize (A (Z.to_nat k)).
  rewrite Z2Nat.id in A by lia. apply Z.eqb_eq, A, in_seq. lia.
Qed.

Lemma masked_bits w bit i : 0 <= w < 2 ^ 64 -> 0 <= bit < 64 -> 0 <= i ->
  Z.testbit (Z.land w (u_cast 8 (Z.lnot (2 ^ bit - 1)))) i = ((bit <=? i) && Z.testbit w i).
Proof.
  intros Hw Hb Hi. unfold u_cast. replace (8 * Z.of_nat 8) with 64 by reflexivity.
  rewrite Z.land_spec, Z.testbit_mod_pow2 by lia. rewrite Z.lnot_spec by lia.
  replace (2 ^ bit - 1) with (Z.ones bit) by (rewrite Z.ones_equiv; lia).
  rewrite Z.testbit_ones_nonneg by lia.
  destruct (Z.ltb_spec i 64).
  - destruct (Z.ltb_spec i bit), (Z.leb_spec bit i), (Z.testbit w i); try lia; reflexivity.
  - rewrite (testbit_high w 64 i) by lia. rewrite !andb_false_r; reflexivity.
Qed.

(** ** findSet *)
Lemma mbit_word m k j : 0 <= k -> 0 <= j < 64 -> mbit m (k * 64 + j) = Z.testbit (nth (Z.to_nat k) (bm_words m) 0) j.
Proof.
  intros Hk Hj. unfold mbit. rewrite Z.add_comm, Z.div_add, Z.mod_add by lia.
  rewrite Z.div_small, Z.mod_small by lia. reflexivity.
Qed.
Lemma nth_wf m i : bm_wf m -> 0 <= nth i (bm_words m) 0 < 2 ^ 64.
Proof.
  intros [H _]. destruct (Nat.lt_ge_cases i (length (bm_words m))).
  - rewrite Forall_forall in H. apply H. now apply nth_In.
  - rewrite nth_overflow by lia. lia.
Qed.

Lemma find_set_loop_ok m : bm_wf m -> bm_clean m ->
  forall fuel start, 0 <= start ->
    (Z.of_nat (length (bm_words m)) < start / 64 + Z.of_nat fuel) -> (0 < fuel)%nat ->
    exists r, find_set_loop fuel m start = Some r /\ first_set m start r.
Proof.
  intros W C. induction fuel as [|fuel IH]; intros start Hs Hf F0; [lia|]. clear F0.
  cbn [find_set_loop].
  destruct (Z.ltb_spec start (bm_size m)) as [Lt|Ge]; cbn [negb].
  2:{ exists (bm_size m). split; auto. right. split; auto. intros j Hj. apply C. lia. }
  assert (IW : (Z.to_nat (start / 64) < length (bm_words m))%nat).
  { destruct W as (_ & _ & W3). unfold zlen in W3.
    assert (start / 64 < Z.of_nat (length (bm_words m))) by (apply Z.div_lt_upper_bound; lia).
    pose proof (Z.div_pos start 64). lia. }
  pose proof (Z.div_pos start 64 ltac:(lia) ltac:(lia)) as SP.
  pose proof (Z.mod_pos_bound start 64 ltac:(lia)) as MB.
  pose proof (Z.div_mod start 64 ltac:(lia)) as DM.
  rewrite (nth_error_nth' _ 0 IW).
  pose proof (nth_wf m (Z.to_nat (start / 64)) W) as HW.
  set (w := nth (Z.to_nat (start / 64)) (bm_words m) 0) in *.
  set (masked := Z.land w _).
  assert (MBits : forall i, 0 <= i -> Z.testbit masked i = ((start mod 64 <=? i) && Z.testbit w i)).
  { intros i Hi. apply masked_bits; auto. }
  destruct (Z.eqb_spec masked 0) as [M0|M0].
  - destruct (IH ((start / 64 + 1) * 64)) as (r & R1 & R2).
    + lia.
    + rewrite Z.div_mul by lia. lia.
    + destruct fuel; [|lia]. exfalso.
      destruct W as (_ & _ & W3). unfold zlen in W3. lia.
    + exists r. split; auto.
      assert (Z0 : forall j, start <= j < (start / 64 + 1) * 64 -> mbit m j = false).
      { intros j Hj. replace j with (start / 64 * 64 + (j - start / 64 * 64)) by lia.
        rewrite mbit_word by lia. fold w.
        specialize (MBits (j - start / 64 * 64) ltac:(lia)). rewrite M0, Z.bits_0 in MBits.
        replace (start mod 64 <=? j - start / 64 * 64) with true in MBits by lia. cbn in MBits. congruence. }
      destruct R2 as [(A & B & D & E)|(A & B)].
      * left. repeat apply conj; auto; try lia. intros j Hj.
        destruct (Z_lt_le_dec j ((start / 64 + 1) * 64)); [apply Z0|apply E]; lia.
      * right. split; auto. intros j Hj.
        destruct (Z_lt_le_dec j ((start / 64 + 1) * 64)); [apply Z0|apply B]; lia.
  - assert (MR : 0 < masked < 2 ^ 64).
    { assert (0 <= masked) by (unfold masked; apply Z.land_nonneg; lia).
      split; [lia|]. destruct (Z_lt_le_dec masked (2 ^ 64)) as [|Big]; auto. exfalso.
      assert (64 <= Z.log2 masked) by (change 64 with (Z.log2 (2 ^ 64)); apply Z.log2_le_mono; lia).
      assert (T : Z.testbit masked (Z.log2 masked) = true) by (apply Z.bit_log2; lia).
      rewrite MBits in T by lia. rewrite (testbit_high w 64) in T by lia. rewrite andb_false_r in T. discriminate. }
    destruct (lowest_bit masked ltac:(lia)) as (k & K0 & K1 & K2).
    assert (K64 : k < 64).
    { destruct (Z_lt_le_dec k 64); auto. rewrite (testbit_high masked 64 k) in K1 by lia. discriminate. }
    rewrite (isolate_lowest masked k) by auto. rewrite bit_search_pow2 by lia.
    pose proof (lor_shift_low (start / 64) k 6) as LS. change (2 ^ 6) with 64 in LS. rewrite LS by lia.
    exists (start / 64 * 64 + k). split; auto. left.
    rewrite MBits in K1 by lia. apply andb_true_iff in K1 as [K1a K1b].
    assert (T : mbit m (start / 64 * 64 + k) = true) by (rewrite mbit_word by lia; exact K1b).
    repeat apply conj; auto; try lia.
    + destruct (Z_lt_le_dec (start / 64 * 64 + k) (bm_size m)); auto. rewrite C in T by lia. discriminate.
    + intros j Hj. replace j with (start / 64 * 64 + (j - start / 64 * 64)) by lia.
      rewrite mbit_word by lia. fold w. specialize (K2 (j - start / 64 * 64) ltac:(lia)).
      rewrite MBits in K2 by lia. replace (start mod 64 <=? j - start / 64 * 64) with true in K2 by lia.
      exact K2.
Qed.

Lemma find_set_ok m start : bm_wf m -> bm_clean m -> 0 <= start ->
  exists r, find_set m start = Some r /\ first_set m start r.
Proof.
  intros W C H. apply find_set_loop_ok; auto.
  - pose proof (Z.div_pos start 64). lia.
  - lia.
Qed.

Lemma iter_from_ok m : bm_wf m -> bm_clean m ->
  forall fuel cur, 0 <= cur <= bm_size m -> (Z.to_nat (bm_size m - cur) <= fuel)%nat ->
    (cur < bm_size m -> mbit m cur = true) ->
    exists l, iter_from fuel m cur (bm_size m) = Some l /\ StronglySorted Z.lt l /\
      forall i, In i l <-> (cur <= i /\ mbit m i = true).
Proof.
  intros W C. induction fuel as [|fuel IH]; intros cur Hc Hf Hb.
  - cbn [iter_from]. replace (cur =? bm_size m) with true by lia. exists []. repeat apply conj; [auto|constructor|].
    intro i. split; [intros []|]. intros [A B]. rewrite C in B by lia. discriminate.
  - cbn [iter_from]. destruct (Z.eqb_spec cur (bm_size m)) as [E|E].
    + exists []. repeat apply conj; [auto|constructor|].
      intro i. split; [intros []|]. intros [A B]. rewrite C in B by lia. discriminate.
    + destruct (find_set_ok m (cur + 1) W C ltac:(lia)) as (r & R1 & R2). rewrite R1.
      destruct R2 as [(A & B & D & G)|(A & G)].
      * destruct (IH r ltac:(lia) ltac:(lia) ltac:(auto)) as (l & L1 & L2 & L3). rewrite L1.
        exists (cur :: l). repeat apply conj; auto.
        -- constructor; auto. apply Forall_forall. intros x Hx. apply L3 in Hx. lia.
        -- intro i. cbn [In]. rewrite L3. split.
           ++ intros [<-|[X Y]]; split; auto; try lia; try (apply Hb; lia).
           ++ intros [X Y]. destruct (Z.eq_dec cur i); [now left|right]. split; auto.
              destruct (Z_lt_le_dec i r); auto. rewrite G in Y by lia. discriminate.
      * subst r. destruct (IH (bm_size m) ltac:(lia) ltac:(lia) ltac:(lia)) as (l & L1 & L2 & L3).
        rewrite L1. exists (cur :: l). repeat apply conj; auto.
        -- constructor; auto. apply Forall_forall. intros x Hx. apply L3 in Hx. lia.
        -- intro i. cbn [In]. rewrite L3. split.
           ++ intros [<-|[X Y]]; split; auto; try lia; try (apply Hb; lia).
           ++ intros [X Y]. destruct (Z.eq_dec cur i); [now left|right]. split; auto.
              rewrite G in Y by lia. discriminate.
Qed.

Lemma only_set_ok m : bm_wf m -> bm_clean m ->
  exists l, only_set (Z.to_nat (bm_size m)) m = Some l /\ lists_set_bits m l.
Proof.
  intros W C. unfold only_set, only_set_range.
  destruct (find_set_ok m 0 W C ltac:(lia)) as (r & R1 & R2). rewrite R1.
  destruct W as (W1 & W2 & W3).
  assert (RR : 0 <= r <= bm_size m /\ (r < bm_size m -> mbit m r = true) /\ forall j, 0 <= j < r -> mbit m j = false).
  { destruct R2 as [(A & B & D & E)|(A & B)].
    - repeat apply conj; auto; lia.
    - subst. repeat apply conj; try lia; intros; apply B; lia. }
  destruct RR as (RR1 & RR2 & RR3).
  destruct (iter_from_ok m ltac:(repeat split; auto; lia) C (Z.to_nat (bm_size m)) r ltac:(lia) ltac:(lia) RR2) as (l & L1 & L2 & L3).
  exists l. repeat apply conj; auto. intros i Hi. rewrite L3. split; [tauto|].
  intro H. split; auto. destruct (Z_lt_le_dec i r); auto. rewrite RR3 in H by lia. discriminate.
Qed.

(** ** construction *)
Lemma lor_63 x : 0 <= x -> Z.lor x 63 = x / 64 * 64 + 63.
Proof.
  intro H. rewrite <- lor_shift_low with (n := 6) (b := 63) by lia.
  apply Z.bits_inj'. intros i Hi. rewrite !Z.lor_spec.
  replace 63 with (Z.ones 6) by reflexivity. rewrite Z.testbit_ones_nonneg by lia.
  replace 64 with (2 ^ 6) by reflexivity.
  destruct (Z.ltb_spec i 6); [now rewrite !orb_true_r|].
  rewrite Z.mul_pow2_bits by lia. rewrite Z.div_pow2_bits by lia.
  now replace (i - 6 + 6) with i by lia.
Qed.

Definition nwords_of (bits : Z) : Z := (bits + 63) / 64.
Lemma bm_resize_words bits m : 0 <= bits < 2 ^ 62 ->
  bm_resize bits m = BM (vec_resize (nwords_of bits) (bm_words m)) (u_cast 2 bits).
Proof.
  intro H. unfold bm_resize, nwords_of. f_equal. f_equal.
  destruct (Z.eq_dec bits 0) as [->|N]; [reflexivity|].
  rewrite (u_cast_id 8 (bits - 1)) by (change (8 * Z.of_nat 8) with 64; lia).
  rewrite lor_63 by lia.
  assert (0 <= (bits - 1) / 64 < 2 ^ 62).
  { split; [apply Z.div_pos; lia|]. apply Z.div_lt_upper_bound; lia. }
  pose proof (Z.div_mod (bits - 1) 64 ltac:(lia)). pose proof (Z.mod_pos_bound (bits - 1) 64 ltac:(lia)).
  rewrite u_cast_id by (change (8 * Z.of_nat 8) with 64; lia).
  replace ((bits - 1) / 64 * 64 + 63 + 1) with (((bits - 1) / 64 + 1) * 64) by lia.
  rewrite Z.div_mul by lia.
  apply Z.div_unique with (r := (bits - 1) mod 64); lia.
Qed.

Lemma vec_resize_nil n : vec_resize n [] = repeat 0 (Z.to_nat n).
Proof. unfold vec_resize. rewrite firstn_nil. cbn [app length]. f_equal. lia. Qed.

Lemma nth_repeat0 i n : nth i (repeat 0 n) 0 = 0.
Proof. revert i. induction n; destruct i; cbn; auto. Qed.

Lemma mbit_fresh bits i : 0 <= bits < 2 ^ 62 -> mbit (bm_resize bits bm_empty) i = false.
Proof.
  intro H. rewrite bm_resize_words by assumption. unfold mbit. cbn [bm_words bm_empty].
  rewrite vec_resize_nil, nth_repeat0. apply Z.bits_0.
Qed.
Lemma wf_fresh bits : 0 <= bits < 2 ^ 16 -> bm_wf (bm_resize bits bm_empty) /\ bm_size (bm_resize bits bm_empty) = bits.
Proof.
  intro H. rewrite bm_resize_words by lia. cbn [bm_words bm_empty]. rewrite vec_resize_nil.
  unfold bm_wf. cbn [bm_words bm_size]. rewrite u_cast_id by (change (8 * Z.of_nat 2) with 16; lia).
  repeat apply conj; try lia.
  - apply Forall_forall. intros x Hx. apply repeat_spec in Hx. lia.
  - unfold zlen, nwords_of. rewrite repeat_length.
    pose proof (Z.div_mod (bits + 63) 64 ltac:(lia)). pose proof (Z.mod_pos_bound (bits + 63) 64 ltac:(lia)). lia.
Qed.

Lemma list_set_length i v l : length (list_set i v l) = length l.
Proof. revert i. induction l; destruct i; cbn; auto. Qed.
Lemma nth_list_set i j v l : (i < length l)%nat -> nth j (list_set i v l) 0 = if Nat.eqb i j then v else nth j l 0.
Proof.
  revert i j. induction l as [|x l IH]; intros i j H; [cbn in H; lia|].
  destruct i, j; cbn; auto. rewrite IH by (cbn in H; lia). reflexivity.
Qed.
Lemma Forall_list_set (P : Z -> Prop) i v l : Forall P l -> P v -> Forall P (list_set i v l).
Proof. intro F. revert i. induction F; intros [|i] Hv; cbn; auto. Qed.

Lemma bm_set_ok m bit v : bm_wf m -> 0 <= bit < bm_size m ->
  exists m', bm_set m bit v = Some m' /\ bm_wf m' /\ bm_size m' = bm_size m /\
    forall i, 0 <= i -> mbit m' i = if i =? bit then v else mbit m i.
Proof.
  intros (W1 & W2 & W3) H. unfold bm_set.
  pose proof (Z.div_pos bit 64 ltac:(lia) ltac:(lia)) as SP.
  pose proof (Z.mod_pos_bound bit 64 ltac:(lia)) as MB.
  pose proof (Z.div_mod bit 64 ltac:(lia)) as DM.
  assert (IW : (Z.to_nat (bit / 64) < length (bm_words m))%nat).
  { unfold zlen in W3. assert (bit / 64 < Z.of_nat (length (bm_words m))) by (apply Z.div_lt_upper_bound; lia). lia. }
  rewrite (nth_error_nth' _ 0 IW).
  pose proof (nth_wf m (Z.to_nat (bit / 64)) ltac:(repeat split; auto; lia)) as HW.
  set (w := nth _ _ _) in *. set (w' := if v then _ else _).
  assert (TB : forall j, 0 <= j -> Z.testbit w' j = if j =? bit mod 64 then v else Z.testbit w j).
  { intros j Hj. unfold w'. destruct v.
    - rewrite Z.lor_spec, Z.pow2_bits_eqb by lia. rewrite Z.eqb_sym. destruct (j =? bit mod 64); [apply orb_true_r|apply orb_false_r].
    - rewrite Z.ldiff_spec, Z.pow2_bits_eqb by lia. rewrite Z.eqb_sym. destruct (j =? bit mod 64); [apply andb_false_r|apply andb_true_r]. }
  assert (P64 : forall p, 0 <= p -> (forall j, 64 <= j -> Z.testbit p j = false) -> 0 <= p < 2 ^ 64).
  { intros p Hp Hb. split; auto. destruct (Z_lt_le_dec p (2 ^ 64)) as [|Big]; auto. exfalso.
    assert (64 <= Z.log2 p) by (change 64 with (Z.log2 (2 ^ 64)); apply Z.log2_le_mono; lia).
    assert (T : Z.testbit p (Z.log2 p) = true) by (apply Z.bit_log2; lia). rewrite Hb in T by lia. discriminate. }
  assert (0 <= 2 ^ (bit mod 64)) by (apply Z.pow_nonneg; lia).
  assert (HW' : 0 <= w' < 2 ^ 64).
  { apply P64.
    - unfold w'. destruct v; [apply Z.lor_nonneg; lia|]. apply Z.ldiff_nonneg. lia.
    - intros j Hj. rewrite TB by lia. replace (j =? bit mod 64) with false by lia. apply (testbit_high w 64); lia. }
  eexists. split; [reflexivity|]. repeat apply conj; cbn [bm_words bm_size]; auto; try lia.
  - apply Forall_list_set; auto.
  - unfold zlen in *. rewrite list_set_length. lia.
  - intros i Hi. unfold mbit. cbn [bm_words]. rewrite nth_list_set by assumption.
    pose proof (Z.div_pos i 64 ltac:(lia) ltac:(lia)). pose proof (Z.mod_pos_bound i 64 ltac:(lia)).
    pose proof (Z.div_mod i 64 ltac:(lia)).
    destruct (Nat.eqb_spec (Z.to_nat (bit / 64)) (Z.to_nat (i / 64))) as [E|E].
    + rewrite TB by lia. destruct (Z.eqb_spec i bit) as [->|N].
      * now rewrite Z.eqb_refl.
      * replace (i mod 64 =? bit mod 64) with false by lia. unfold w. now rewrite E.
    + replace (i =? bit) with false; auto. symmetry. apply Z.eqb_neq. intros ->. contradiction.
Qed.

Lemma bm_get_ok m bit : bm_wf m -> 0 <= bit < bm_size m -> bm_get m bit = Some (mbit m bit).
Proof.
  intros W H. unfold bm_get, mbit.
  assert (IW : (Z.to_nat (bit / 64) < length (bm_words m))%nat).
  { destruct W as (_ & _ & W3). unfold zlen in W3.
    assert (bit / 64 < Z.of_nat (length (bm_words m))) by (apply Z.div_lt_upper_bound; lia).
    pose proof (Z.div_pos bit 64). lia. }
  rewrite (nth_error_nth' _ 0 IW). f_equal.
  pose proof (Z.mod_pos_bound bit 64 ltac:(lia)).
  set (w := nth _ _ _).
  destruct (Z.testbit w (bit mod 64)) eqn:T.
  - apply negb_true_iff, Z.eqb_neq. intro E. apply (f_equal (fun x => Z.testbit x (bit mod 64))) in E.
    rewrite Z.land_spec, T, Z.pow2_bits_true, Z.bits_0 in E by lia. discriminate.
  - apply negb_false_iff, Z.eqb_eq. apply Z.bits_inj'. intros j Hj.
    rewrite Z.land_spec, Z.pow2_bits_eqb, Z.bits_0 by lia.
    destruct (Z.eqb_spec (bit mod 64) j) as [<-|]; [now rewrite T|apply andb_false_r].
Qed.

Lemma bm_set_all_ok bits : forall m, bm_wf m -> Forall (fun b => 0 <= b < bm_size m) bits ->
  exists m', bm_set_all m bits = Some m' /\ bm_wf m' /\ bm_size m' = bm_size m /\
    forall i, 0 <= i -> mbit m' i = (existsb (Z.eqb i) bits || mbit m i).
Proof.
  induction bits as [|b bits IH]; intros m W F; cbn [bm_set_all existsb].
  - exists m. auto.
  - inversion F; subst.
    destruct (bm_set_ok m b true W ltac:(auto)) as (m1 & S1 & W1 & Z1 & B1). rewrite S1.
    destruct (IH m1 W1 ltac:(rewrite Z1; auto)) as (m2 & S2 & W2 & Z2 & B2).
    exists m2. split; [exact S2|]. split; [exact W2|]. split; [congruence|]. intros i Hi. rewrite B2, B1 by auto.
    destruct (Z.eqb_spec i b); [subst; cbn; apply orb_true_r|]. reflexivity.
Qed.

Lemma fold_max_le bits b : In b bits -> b <= fold_right Z.max 0 bits.
Proof. induction bits; cbn; [intros []|]. intros [->|H]; [lia|]. specialize (IHbits H). lia. Qed.
Lemma fold_max_bound bits k : 0 <= k -> Forall (fun b => b < k) bits -> fold_right Z.max 0 bits <= k - 0.
Proof. induction 2; cbn; lia. Qed.
Lemma fold_max_bound' bits k : 0 < k -> Forall (fun b => b < k) bits -> fold_right Z.max 0 bits < k.
Proof. induction 2; cbn; lia. Qed.

(** ** the wire form *)
Lemma land_byte w s : 0 <= s -> Z.land w (255 * 2 ^ s) = (w / 2 ^ s) mod 256 * 2 ^ s.
Proof.
  intro H. apply Z.bits_inj'. intros i Hi. rewrite Z.land_spec, !Z.mul_pow2_bits by lia.
  change 256 with (2 ^ 8). change 255 with (Z.ones 8).
  destruct (Z_lt_le_dec i s).
  - rewrite !(Z.testbit_neg_r _ (i - s)) by lia. apply andb_false_r.
  - rewrite Z.testbit_mod_pow2 by lia. rewrite Z.testbit_ones_nonneg by lia.
    rewrite Z.div_pow2_bits by lia. replace (i - s + s) with i by lia. apply andb_comm.
Qed.
Lemma byte_zero_lt w s : 0 <= s -> 0 <= w < 2 ^ (s + 8) -> (Z.land w (255 * 2 ^ s) =? 0) = (w <? 2 ^ s).
Proof.
  intros Hs Hw. rewrite land_byte by lia.
  assert (P : 0 < 2 ^ s) by (apply Z.pow_pos_nonneg; lia).
  rewrite Z.pow_add_r in Hw by lia. change (2 ^ 8) with 256 in Hw.
  assert (D : 0 <= w / 2 ^ s < 256) by (split; [apply Z.div_pos; lia|apply Z.div_lt_upper_bound; lia]).
  rewrite Z.mod_small by lia.
  pose proof (Z.div_mod w (2 ^ s) ltac:(lia)). pose proof (Z.mod_pos_bound w (2 ^ s) P).
  destruct (Z.ltb_spec w (2 ^ s)).
  - rewrite Z.div_small by lia. reflexivity.
  - assert (1 <= w / 2 ^ s) by (apply Z.div_le_lower_bound; lia).
    apply Z.eqb_neq. assert (1 * 2 ^ s <= w / 2 ^ s * 2 ^ s) by (apply Z.mul_le_mono_nonneg_r; lia). lia.
Qed.

Lemma mask_extra_ok w : 0 < w < 2 ^ 56 ->
  1 <= mask_extra w <= 7 /\ 2 ^ (8 * (mask_extra w - 1)) <= w < 2 ^ (8 * mask_extra w).
Proof.
  intro H. unfold mask_extra.
  change 0x00ff000000000000 with (255 * 2 ^ 48). rewrite byte_zero_lt by (cbn; lia).
  destruct (Z.ltb_spec w (2 ^ 48)); cbn [negb]; [|cbn; lia].
  change 0x0000ff0000000000 with (255 * 2 ^ 40). rewrite byte_zero_lt by (cbn; lia).
  destruct (Z.ltb_spec w (2 ^ 40)); cbn [negb]; [|cbn; lia].
  change 0x000000ff00000000 with (255 * 2 ^ 32). rewrite byte_zero_lt by (cbn; lia).
  destruct (Z.ltb_spec w (2 ^ 32)); cbn [negb]; [|cbn; lia].
  change 0x00000000ff000000 with (255 * 2 ^ 24). rewrite byte_zero_lt by (cbn; lia).
  destruct (Z.ltb_spec w (2 ^ 24)); cbn [negb]; [|cbn; lia].
  change 0x0000000000ff0000 with (255 * 2 ^ 16). rewrite byte_zero_lt by (cbn; lia).
  destruct (Z.ltb_spec w (2 ^ 16)); cbn [negb]; [|cbn; lia].
  change 0x000000000000ff00 with (255 * 2 ^ 8). rewrite byte_zero_lt by (cbn; lia).
  destruct (Z.ltb_spec w (2 ^ 8)); cbn [negb]; [|cbn; lia].
  change 0x00000000000000ff with (255 * 2 ^ 0). rewrite byte_zero_lt by (cbn; lia).
  destruct (Z.ltb_spec w (2 ^ 0)); cbn [negb]; [|cbn; lia].
  exfalso. cbn in *. lia.
Qed.

(** what the scan for trailing zeros finds *)
Definition scan_spec (words : list Z) (n k : nat) (e : Z) : Prop :=
  (k <= n)%nat /\
  ((e = 0 /\ (forall i, (k <= i < n)%nat -> nth i words 0 = 0) /\
    (k = 0%nat \/ 2 ^ 56 <= nth (k - 1) words 0)) \/
   (1 <= e <= 7 /\ (k < n)%nat /\ (forall i, (k < i < n)%nat -> nth i words 0 = 0) /\
    2 ^ (8 * (e - 1)) <= nth k words 0 < 2 ^ (8 * e))).
Lemma mask_scan_ok words : Forall (fun w => 0 <= w < 2 ^ 64) words ->
  forall n, (n <= length words)%nat -> let '(k, e) := mask_scan n words in scan_spec words n k e.
Proof.
  intros F. induction n as [|n IH]; intro Hn; cbn [mask_scan].
  - split; [lia|]. left. repeat apply conj; auto. lia.
  - assert (HW : 0 <= nth n words 0 < 2 ^ 64) by (rewrite Forall_forall in F; apply F, nth_In; lia).
    set (last := nth n words 0) in *.
    change 0xff00000000000000 with (255 * 2 ^ 56). rewrite byte_zero_lt by (cbn; lia).
    destruct (Z.ltb_spec last (2 ^ 56)) as [L|L]; cbn [negb].
    + destruct (Z.eqb_spec last 0) as [Z0|Z0].
      * specialize (IH ltac:(lia)). destruct (mask_scan n words) as [k e].
        destruct IH as [K [(E & A & B)|(E & KN & A & B)]]; (split; [lia|]).
        -- left. repeat apply conj; auto. intros i Hi.
           destruct (Nat.eq_dec i n); [subst; exact Z0|apply A; lia].
        -- right. repeat apply conj; auto; try lia. intros i Hi.
           destruct (Nat.eq_dec i n); [subst; exact Z0|apply A; lia].
      * destruct (mask_extra_ok last ltac:(lia)) as [E1 E2]. split; [lia|]. right.
        repeat apply conj; try lia; intros; lia.
    + split; [lia|]. left. repeat apply conj; auto; [intros; lia|].
      right. cbn. rewrite Nat.sub_0_r. exact L.
Qed.

Lemma to_wire_words_out h l pre be :
  to_wire_words h l (outbuf pre be) = outbuf (pre ++ enc_elems be 8 l) be.
Proof.
  revert pre. induction l as [|v l IH]; intro pre; cbn [to_wire_words enc_elems].
  - now rewrite app_nil_r.
  - now rewrite to_wire_u_out, IH, app_assoc.
Qed.
Lemma enc_u1 be v : enc_u be 1 v = [u_cast 1 v].
Proof.
  unfold enc_u. cbn [le_bytes]. pose proof (u_cast_range 1 v) as R.
  change (2 ^ (8 * Z.of_nat 1)) with 256 in R. rewrite Z.mod_small by lia. now destruct be.
Qed.
Lemma div256_iter v i : 0 <= v -> 0 <= i -> Z.shiftr v (8 * i) / 256 = Z.shiftr v (8 * (i + 1)).
Proof.
  intros Hv Hi. rewrite !Z.shiftr_div_pow2 by lia. rewrite Z.div_div by (try apply Z.pow_pos_nonneg; try apply Z.pow_nonzero; lia).
  f_equal. replace (8 * (i + 1)) with (8 * i + 8) by lia. rewrite Z.pow_add_r by lia. reflexivity.
Qed.
Lemma to_wire_tail_out h last n : forall i pre be, 0 <= last ->
  to_wire_tail h last i n (outbuf pre be) = outbuf (pre ++ le_bytes n (Z.shiftr last (8 * Z.of_nat i))) be.
Proof.
  induction n as [|n IH]; intros i pre be H; cbn [to_wire_tail le_bytes].
  - now rewrite app_nil_r.
  - rewrite to_wire_u_out, IH, enc_u1 by assumption. rewrite <- app_assoc. cbn [app].
    rewrite div256_iter by lia. unfold u_cast. change (2 ^ (8 * Z.of_nat 1)) with 256.
    replace (Z.of_nat (S i)) with (Z.of_nat i + 1) by lia. reflexivity.
Qed.

Lemma from_wire_words_in h l : forall old rest be, (length l <= length old)%nat ->
  Forall (fun w => 0 <= w < 2 ^ 64) l ->
  from_wire_words h (length l) old (inbuf (enc_elems be 8 l ++ rest) be) =
    (l ++ skipn (length l) old, inbuf rest be).
Proof.
  induction l as [|v l IH]; intros old rest be L F; cbn [length from_wire_words enc_elems skipn app].
  - reflexivity.
  - destruct old as [|o old]; [cbn in L; lia|]. inversion F; subst.
    rewrite <- app_assoc, from_wire_u_in by (change (8 * Z.of_nat 8) with 64; lia).
    rewrite IH by (cbn in L; auto; lia). reflexivity.
Qed.

Lemma shiftl_byte_split v' b i : 0 <= b < 256 -> 0 <= v' -> 0 <= i ->
  Z.lor (Z.shiftl b (8 * i)) (Z.shiftl v' (8 * (i + 1))) = Z.shiftl (b + 256 * v') (8 * i).
Proof.
  intros Hb Hv Hi. replace (8 * (i + 1)) with (8 + 8 * i) by lia.
  rewrite <- Z.shiftl_shiftl by lia. rewrite <- Z.shiftl_lor. f_equal.
  rewrite Z.shiftl_mul_pow2 by lia. rewrite Z.lor_comm, lor_shift_low by lia.
  change (2 ^ 8) with 256. lia.
Qed.
Lemma from_wire_tail_in h n : forall i v last rest be, 0 <= v < 2 ^ (8 * Z.of_nat n) ->
  from_wire_tail h i n last (inbuf (le_bytes n v ++ rest) be) =
    (Z.lor last (Z.shiftl v (8 * Z.of_nat i)), inbuf rest be).
Proof.
  induction n as [|n IH]; intros i v last rest be H; cbn [from_wire_tail le_bytes app].
  - change (2 ^ (8 * Z.of_nat 0)) with 1 in H. replace v with 0 by lia. now rewrite Z.shiftl_0_l, Z.lor_0_r.
  - rewrite pow256 in H. pose proof (Z.mod_pos_bound v 256 ltac:(lia)) as MB.
    assert (E : v mod 256 :: le_bytes n (v / 256) ++ rest = enc_u be 1 (v mod 256) ++ (le_bytes n (v / 256) ++ rest)).
    { rewrite enc_u1. rewrite u_cast_id by (change (2 ^ (8 * Z.of_nat 1)) with 256; lia). reflexivity. }
    rewrite E, from_wire_u_in by (change (2 ^ (8 * Z.of_nat 1)) with 256; lia).
    rewrite IH by (split; [apply Z.div_pos; lia|apply Z.div_lt_upper_bound; lia]).
    f_equal. rewrite <- Z.lor_assoc. f_equal.
    replace (Z.of_nat (S i)) with (Z.of_nat i + 1) by lia.
    rewrite shiftl_byte_split by (try lia; apply Z.div_pos; lia).
    f_equal. pose proof (Z.div_mod v 256). lia.
Qed.

(** bytes of a mask on the wire *)
Definition enc_mask (be : bool) (m : bmask) : list Z :=
  let '(k, e) := mask_scan (length (bm_words m)) (bm_words m) in
  enc_size be (Z.of_nat k * 8 + e) ++ enc_elems be 8 (firstn k (bm_words m)) ++
  le_bytes (Z.to_nat e) (nth k (bm_words m) 0).

Lemma to_wire_mask_out h m pre be :
  Forall (fun w => 0 <= w < 2 ^ 64) (bm_words m) -> 8 * zlen (bm_words m) <= 0xffffffff ->
  to_wire_mask h m (outbuf pre be) = outbuf (pre ++ enc_mask be m) be.
Proof.
  intros F L. unfold to_wire_mask, enc_mask.
  pose proof (mask_scan_ok (bm_words m) F (length (bm_words m)) (le_n _)) as S.
  destruct (mask_scan _ _) as [k e]. destruct S as [K S]. unfold zlen in L.
  rewrite to_wire_size_out by lia. rewrite to_wire_words_out.
  destruct S as [(E & _)|(E & KN & _ & B)].
  - subst e. cbn [Z.eqb Z.to_nat le_bytes]. now rewrite app_nil_r, <- app_assoc.
  - replace (e =? 0) with false by lia. rewrite to_wire_tail_out.
    + rewrite <- !app_assoc. change (8 * Z.of_nat 0) with 0. rewrite Z.shiftr_0_r. reflexivity.
    + rewrite Forall_forall in F. specialize (F (nth k (bm_words m) 0)). apply F, nth_In. lia.
Qed.

Lemma nth_firstn_lt {A} i k (l : list A) d : (i < k)%nat -> nth i (firstn k l) d = nth i l d.
Proof.
  revert i l. induction k; intros i l H; [lia|]. destruct l, i; cbn; auto. apply IHk. lia.
Qed.

Lemma list_set_last l x w : list_set (length l) w (l ++ [x]) = l ++ [w].
Proof. induction l; cbn; congruence. Qed.

(** reading into a fresh mask *)
Lemma from_wire_mask_in h m rest be :
  Forall (fun w => 0 <= w < 2 ^ 64) (bm_words m) -> 8 * zlen (bm_words m) <= 0xffffffff ->
  exists m' nbytes,
    from_wire_mask h bm_empty (inbuf (enc_mask be m ++ rest) be) = (m', inbuf rest be) /\
    (forall i, 0 <= i -> mbit m' i = mbit m i) /\
    Forall (fun w => 0 <= w < 2 ^ 64) (bm_words m') /\
    0 <= nbytes <= 8 * zlen (bm_words m) /\
    bm_size m' = u_cast 2 (8 * nbytes) /\
    8 * nbytes <= 64 * zlen (bm_words m') /\
    (forall i, 8 * nbytes <= i -> mbit m i = false) /\
    (0 < nbytes -> exists i, 8 * (nbytes - 1) <= i < 8 * nbytes /\ mbit m i = true).
Proof.
  intros F L. unfold enc_mask, from_wire_mask.
  pose proof (mask_scan_ok (bm_words m) F (length (bm_words m)) (le_n _)) as S.
  destruct (mask_scan _ _) as [k e]. destruct S as [K S]. unfold zlen in L.
  assert (E7 : 0 <= e <= 7) by (destruct S as [(E & _)|(E & _)]; lia).
  rewrite <- !app_assoc. rewrite from_wire_size_in by lia.
  cbn [rgood inbuf rerr negb orb].
  replace ((2 ^ 64 - 1) / 8 <? Z.of_nat k * 8 + e) with false.
  2:{ symmetry. apply Z.ltb_ge. change ((2 ^ 64 - 1) / 8) with 2305843009213693951. lia. }
  set (nb := Z.of_nat k * 8 + e).
  assert (D8 : nb / 8 = Z.of_nat k /\ nb mod 8 = e).
  { unfold nb. split; [rewrite Z.add_comm, Z.div_add, Z.div_small; lia|rewrite Z.add_comm, Z.mod_add, Z.mod_small; lia]. }
  destruct D8 as [D8 M8]. rewrite D8, M8, Nat2Z.id.
  rewrite bm_resize_words by lia. cbn [bm_words bm_empty bm_size]. rewrite vec_resize_nil.
  assert (NW : nwords_of (8 * nb) = Z.of_nat k + (if e =? 0 then 0 else 1)).
  { unfold nwords_of, nb. symmetry. apply Z.div_unique with (r := if e =? 0 then 63 else 8 * e - 1); destruct (Z.eqb_spec e 0); lia. }
  assert (FL : length (firstn k (bm_words m)) = k) by (rewrite firstn_length; lia).
  assert (FF : Forall (fun w => 0 <= w < 2 ^ 64) (firstn k (bm_words m))).
  { apply Forall_forall. intros x Hx. rewrite Forall_forall in F. apply F.
    rewrite <- (firstn_skipn k (bm_words m)). apply in_or_app. now left. }
  assert (RW : forall r, from_wire_words h k (repeat 0 (Z.to_nat (nwords_of (8 * nb))))
      (inbuf (enc_elems be 8 (firstn k (bm_words m)) ++ r) be) =
      (firstn k (bm_words m) ++ repeat 0 (if e =? 0 then 0 else 1), inbuf r be)).
  { intro r. pose proof (from_wire_words_in h (firstn k (bm_words m)) (repeat 0 (Z.to_nat (nwords_of (8 * nb)))) r be) as X.
    rewrite FL in X. rewrite X; auto; [|rewrite repeat_length; destruct (e =? 0); lia].
    f_equal. f_equal. rewrite NW. destruct (e =? 0).
    - rewrite skipn_all2; auto. rewrite repeat_length. lia.
    - replace (Z.to_nat (Z.of_nat k + 1)) with (k + 1)%nat by lia. rewrite repeat_app.
      rewrite skipn_app, repeat_length, Nat.sub_diag. rewrite skipn_all2 by (rewrite repeat_length; lia). reflexivity. }
  change (RB ?l be false) with (inbuf l be).
  rewrite RW.
  destruct S as [(E & A & B)|(E & KN & A & B)].
  - subst e. cbn [Z.eqb Z.to_nat le_bytes app repeat]. rewrite app_nil_r.
    exists (BM (firstn k (bm_words m)) (u_cast 2 (8 * nb))), nb.
    split; [reflexivity|]. cbn [bm_words bm_size]. repeat apply conj; auto; try (unfold zlen, nb; lia).
    + intros i Hi. unfold mbit. cbn [bm_words]. f_equal.
      destruct (Nat.lt_ge_cases (Z.to_nat (i / 64)) k).
      * now rewrite nth_firstn_lt.
      * rewrite nth_overflow by lia.
        destruct (Nat.lt_ge_cases (Z.to_nat (i / 64)) (length (bm_words m))); [rewrite A by lia; reflexivity|].
        now rewrite nth_overflow by lia.
    + intros i Hi. unfold mbit.
      assert (k <= Z.to_nat (i / 64))%nat.
      { assert (Z.of_nat k <= i / 64) by (apply Z.div_le_lower_bound; unfold nb in Hi; lia). lia. }
      destruct (Nat.lt_ge_cases (Z.to_nat (i / 64)) (length (bm_words m))).
      * rewrite A by lia. apply Z.bits_0.
      * rewrite nth_overflow by lia. apply Z.bits_0.
    + intro P. destruct B as [->|B]; [unfold nb in P; lia|].
      assert (k <> 0%nat) by (unfold nb in P; lia).
      assert (HW : 0 <= nth (k - 1) (bm_words m) 0 < 2 ^ 64).
      { rewrite Forall_forall in F. apply F, nth_In. lia. }
      set (w := nth (k - 1) (bm_words m) 0) in *.
      assert (56 <= Z.log2 w) by (change 56 with (Z.log2 (2 ^ 56)); apply Z.log2_le_mono; lia).
      assert (Z.log2 w < 64) by (apply Z.log2_lt_pow2; lia).
      exists (Z.of_nat (k - 1) * 64 + Z.log2 w). split; [unfold nb; lia|].
      rewrite mbit_word by lia. rewrite Nat2Z.id. fold w. apply Z.bit_log2. lia.
  - replace (e =? 0) with false by lia. cbn [repeat].
    rewrite app_nth2 by lia. rewrite FL, Nat.sub_diag. cbn [nth].
    rewrite from_wire_tail_in by (rewrite Z2Nat.id by lia; split; [|apply B]; assert (0 < 2 ^ (8 * (e - 1))) by (apply Z.pow_pos_nonneg; lia); lia).
    change (8 * Z.of_nat 0) with 0. rewrite Z.shiftl_0_r, Z.lor_0_l.
    set (w := nth k (bm_words m) 0) in *.
    assert (HW : 0 <= w < 2 ^ 64).
    { rewrite Forall_forall in F. apply F, nth_In. lia. }
    assert (LS : list_set k w (firstn k (bm_words m) ++ [0]) = firstn k (bm_words m) ++ [w]).
    { rewrite <- (list_set_last (firstn k (bm_words m)) 0 w). now rewrite FL. }
    rewrite LS.
    exists (BM (firstn k (bm_words m) ++ [w]) (u_cast 2 (8 * nb))), nb.
    split; [reflexivity|]. cbn [bm_words bm_size]. repeat apply conj; auto; try (unfold zlen, nb; lia).
    + intros i Hi. unfold mbit. cbn [bm_words]. f_equal.
      destruct (Nat.lt_ge_cases (Z.to_nat (i / 64)) k).
      * rewrite app_nth1 by lia. now rewrite nth_firstn_lt.
      * rewrite app_nth2 by lia. rewrite FL.
        destruct (Nat.eq_dec (Z.to_nat (i / 64)) k) as [->|N].
        -- now rewrite Nat.sub_diag.
        -- rewrite nth_overflow by (cbn; lia).
           destruct (Nat.lt_ge_cases (Z.to_nat (i / 64)) (length (bm_words m))); [rewrite A by lia; reflexivity|].
           now rewrite nth_overflow by lia.
    + apply Forall_app. split; auto.
    + unfold zlen. rewrite app_length, FL. cbn [length]. unfold nb. lia.
    + intros i Hi. unfold mbit.
      assert (KI : (k <= Z.to_nat (i / 64))%nat).
      { assert (Z.of_nat k <= i / 64) by (apply Z.div_le_lower_bound; unfold nb in Hi; lia). lia. }
      destruct (Nat.eq_dec (Z.to_nat (i / 64)) k) as [EQ|N].
      * rewrite EQ. fold w. apply (testbit_high w (8 * e)).
        -- lia.
        -- pose proof (Z.div_mod i 64 ltac:(lia)). assert (i / 64 = Z.of_nat k) by lia. unfold nb in Hi. lia.
      * destruct (Nat.lt_ge_cases (Z.to_nat (i / 64)) (length (bm_words m))).
        -- rewrite A by lia. apply Z.bits_0.
        -- rewrite nth_overflow by lia. apply Z.bits_0.
    + intro P. assert (PP : 0 < 2 ^ (8 * (e - 1))) by (apply Z.pow_pos_nonneg; lia).
      assert (8 * (e - 1) <= Z.log2 w).
      { rewrite <- (Z.log2_pow2 (8 * (e - 1))) by lia. apply Z.log2_le_mono. lia. }
      assert (Z.log2 w < 8 * e) by (apply Z.log2_lt_pow2; lia).
      exists (Z.of_nat k * 64 + Z.log2 w). split; [unfold nb; lia|].
      rewrite mbit_word by lia. rewrite Nat2Z.id. fold w. apply Z.bit_log2. lia.
Qed.

(** ** safety and buffer programs *)
Lemma safe_from_wire_words h n : forall old, safe_decoder (from_wire_words h n old).
Proof.
  induction n as [|n IH]; intros old b; cbn [from_wire_words]; [destruct old; apply safe_refl|].
  destruct old as [|o old]; [apply safe_refl|].
  pose proof (safe_from_wire_u h 8 o b) as S1. destruct (from_wire_u h 8 o b) as [v b1].
  pose proof (IH old b1) as S2. destruct (from_wire_words h n old b1) as [l b2].
  eapply safe_trans; eauto.
Qed.
Lemma safe_from_wire_tail h n : forall i last, safe_decoder (from_wire_tail h i n last).
Proof.
  induction n as [|n IH]; intros i last b; cbn [from_wire_tail]; [apply safe_refl|].
  pose proof (safe_from_wire_u h 1 0 b) as S1. destruct (from_wire_u h 1 0 b) as [v b1].
  eapply safe_trans; [exact S1|]. apply IH.
Qed.
Lemma safe_from_wire_mask h m : safe_decoder (from_wire_mask h m).
Proof.
  intro b. unfold from_wire_mask.
  pose proof (safe_from_wire_size h 0 false b) as S1. destruct (from_wire_size h 0 false b) as [nb b1].
  destruct (_ || _); [exact S1|].
  pose proof (safe_from_wire_words h (Z.to_nat (nb / 8)) (bm_words (bm_resize (8 * nb) m)) b1) as S2.
  destruct (from_wire_words _ _ _ b1) as [ws b2]. cbn [snd] in *.
  pose proof (safe_trans _ _ _ S1 S2) as S12.
  destruct (nb mod 8 =? 0); [exact S12|].
  pose proof (safe_from_wire_tail h (Z.to_nat (nb mod 8)) 0 (nth (Z.to_nat (nb / 8)) ws 0) b2) as S3.
  destruct (from_wire_tail _ _ _ _ b2) as [last b3].
  eapply safe_trans; eauto.
Qed.

Fixpoint p_words (host : bool) (n : nat) (old : list Z) : rprog (list Z) :=
  match n, old with
  | S n', o :: old' => pbind (p_u host 8 o) (fun v => pbind (p_words host n' old') (fun l => PRet (v :: l)))
  | _, _ => PRet old
  end.
Lemma p_words_ok h n old : buffer_program (from_wire_words h n old) (p_words h n old).
Proof.
  revert old. induction n as [|n IH]; intros [|o old] b; try reflexivity.
  cbn [p_words from_wire_words]. rewrite run_flat_bind, p_u_ok. destruct (from_wire_u h 8 o b) as [v b1].
  rewrite run_flat_bind, IH. destruct (from_wire_words h n old b1). reflexivity.
Qed.
Fixpoint p_tail (host : bool) (i n : nat) (last : Z) : rprog Z :=
  match n with
  | O => PRet last
  | S n' => pbind (p_u host 1 0) (fun v => p_tail host (S i) n' (Z.lor last (Z.shiftl v (8 * Z.of_nat i))))
  end.
Lemma p_tail_ok h n : forall i last, buffer_program (from_wire_tail h i n last) (p_tail h i n last).
Proof.
  induction n as [|n IH]; intros i last b; [reflexivity|].
  cbn [p_tail from_wire_tail]. rewrite run_flat_bind, p_u_ok. destruct (from_wire_u h 1 0 b) as [v b1]. apply IH.
Qed.
Definition p_mask (host : bool) (m : bmask) : rprog bmask :=
  pbind (p_size host 0 false) (fun nbytes =>
    PGood (fun g =>
      if negb g || ((2 ^ 64 - 1) / 8 <? nbytes) then PRet m
      else
        let m1 := bm_resize (8 * nbytes) m in
        let nwords := Z.to_nat (nbytes / 8) in
        let extra := nbytes mod 8 in
        pbind (p_words host nwords (bm_words m1)) (fun ws =>
          if extra =? 0 then PRet (BM ws (bm_size m1))
          else pbind (p_tail host 0 (Z.to_nat extra) (nth nwords ws 0)) (fun last =>
            PRet (BM (list_set nwords last ws) (bm_size m1)))))).
Lemma p_mask_ok h m : buffer_program (from_wire_mask h m) (p_mask h m).
Proof.
  intro b. unfold p_mask. rewrite run_flat_bind, p_size_ok. unfold from_wire_mask.
  destruct (from_wire_size h 0 false b) as [nb b1]. cbn [run_flat].
  destruct (_ || _); [reflexivity|]. rewrite run_flat_bind, p_words_ok.
  destruct (from_wire_words _ _ _ b1) as [ws b2]. destruct (nb mod 8 =? 0); [reflexivity|].
  rewrite run_flat_bind, p_tail_ok. destruct (from_wire_tail _ _ _ _ b2). reflexivity.
Qed.

(** ** expressions *)
(** masks as made by resize(): exactly the words needed *)
Definition bm_exact (m : bmask) : Prop := bm_wf m /\ zlen (bm_words m) = nwords_of (bm_size m).

Inductive be_masks (P : bmask -> Prop) : bexpr -> Prop :=
| BMmask m : P m -> be_masks P (BEmask m)
| BMnot e : be_masks P e -> be_masks P (BEnot e)
| BMand a b : be_masks P a -> be_masks P b -> be_masks P (BEand a b)
| BMor a b : be_masks P a -> be_masks P b -> be_masks P (BEor a b).

Fixpoint be_bit (e : bexpr) (i : Z) : bool :=
  match e with
  | BEmask m => mbit m i
  | BEnot e => negb (be_bit e i)
  | BEand a b => be_bit a i && be_bit b i
  | BEor a b => be_bit a i || be_bit b i
  end.

Lemma be_facts n e : be_masks (fun m => bm_exact m /\ bm_size m = n) e ->
  be_ok e = true /\ be_size e = n /\ Z.of_nat (be_wsize e) = nwords_of n /\
  forall k, (k < be_wsize e)%nat -> exists w, be_word e k = Some w /\ 0 <= w < 2 ^ 64 /\
    forall j, 0 <= j < 64 -> Z.testbit w j = be_bit e (Z.of_nat k * 64 + j).
Proof.
  induction 1 as [m [[W E] S]|e H (O & S & WS & B)|a b Ha (Oa & Sa & Wa & Ba) Hb (Ob & Sb & Wb & Bb)|a b Ha (Oa & Sa & Wa & Ba) Hb (Ob & Sb & Wb & Bb)];
    cbn [be_ok be_size be_wsize be_word be_bit].
  - subst n. repeat apply conj; auto. intros k Hk. exists (nth k (bm_words m) 0).
    split; [now apply nth_error_nth'|]. split; [now apply nth_wf|].
    intros j Hj. rewrite mbit_word by lia. now rewrite Nat2Z.id.
  - repeat apply conj; auto. intros k Hk. destruct (B k Hk) as (w & W1 & W2 & W3). rewrite W1.
    exists (u_cast 8 (Z.lnot w)). split; auto. split; [apply (u_cast_range 8)|].
    intros j Hj. unfold u_cast. change (8 * Z.of_nat 8) with 64. rewrite Z.testbit_mod_pow2 by lia.
    replace (j <? 64) with true by lia. cbn [andb]. rewrite Z.lnot_spec by lia. now rewrite W3.
  - rewrite Oa, Ob, Sa, Sb, Z.eqb_refl. repeat apply conj; auto; try lia.
    intros k Hk. destruct (Ba k ltac:(lia)) as (w & W1 & W2 & W3). destruct (Bb k ltac:(lia)) as (v & V1 & V2 & V3).
    rewrite W1, V1. exists (Z.land w v). split; auto.
    assert (T : forall j, 0 <= j -> Z.testbit (Z.land w v) j = Z.testbit w j && Z.testbit v j) by (intros; apply Z.land_spec).
    split.
    + split; [apply Z.land_nonneg; lia|]. destruct (Z_lt_le_dec (Z.land w v) (2 ^ 64)) as [|Big]; auto. exfalso.
      assert (64 <= Z.log2 (Z.land w v)) by (change 64 with (Z.log2 (2 ^ 64)); apply Z.log2_le_mono; lia).
      assert (X : Z.testbit (Z.land w v) (Z.log2 (Z.land w v)) = true) by (apply Z.bit_log2; lia).
      rewrite T in X by lia. rewrite (testbit_high w 64) in X by lia. discriminate.
    + intros j Hj. rewrite T, W3, V3 by lia. reflexivity.
  - rewrite Oa, Ob, Sa, Sb, Z.eqb_refl. repeat apply conj; auto; try lia.
    intros k Hk. destruct (Ba k ltac:(lia)) as (w & W1 & W2 & W3). destruct (Bb k ltac:(lia)) as (v & V1 & V2 & V3).
    rewrite W1, V1. exists (Z.lor w v). split; auto.
    assert (T : forall j, 0 <= j -> Z.testbit (Z.lor w v) j = Z.testbit w j || Z.testbit v j) by (intros; apply Z.lor_spec).
    split.
    + split; [apply Z.lor_nonneg; lia|]. destruct (Z_lt_le_dec (Z.lor w v) (2 ^ 64)) as [|Big]; auto. exfalso.
      assert (64 <= Z.log2 (Z.lor w v)) by (change 64 with (Z.log2 (2 ^ 64)); apply Z.log2_le_mono; lia).
      assert (X : Z.testbit (Z.lor w v) (Z.log2 (Z.lor w v)) = true) by (apply Z.bit_log2; lia).
      rewrite T in X by lia. rewrite (testbit_high w 64), (testbit_high v 64) in X by lia. discriminate.
    + intros j Hj. rewrite T, W3, V3 by lia. reflexivity.
Qed.

Lemma be_store_ok e n : forall i words,
  (forall k, (i <= k < i + n)%nat -> exists w, be_word e k = Some w /\ 0 <= w < 2 ^ 64) ->
  Forall (fun w => 0 <= w < 2 ^ 64) words ->
  (i + n <= length words)%nat ->
  exists ws, be_store e n i words = Some ws /\ length ws = length words /\
    Forall (fun w => 0 <= w < 2 ^ 64) ws /\
    forall k, (i <= k < i + n)%nat -> be_word e k = Some (nth k ws 0).
Proof.
  assert (G : forall n i words,
    (forall k, (i <= k < i + n)%nat -> exists w, be_word e k = Some w /\ 0 <= w < 2 ^ 64) ->
    Forall (fun w => 0 <= w < 2 ^ 64) words ->
    (i + n <= length words)%nat ->
    exists ws, be_store e n i words = Some ws /\ length ws = length words /\
      Forall (fun w => 0 <= w < 2 ^ 64) ws /\
      (forall k, (i <= k < i + n)%nat -> be_word e k = Some (nth k ws 0)) /\
      (forall k, (k < i)%nat -> nth k ws 0 = nth k words 0)).
  { clear n. induction n as [|n IH]; intros i words B F L; cbn [be_store].
    - exists words. repeat apply conj; auto. intros; lia.
    - destruct (B i ltac:(lia)) as (w & W1 & W2). rewrite W1.
      replace (i <? length words)%nat with true by lia.
      destruct (IH (S i) (list_set i w words)) as (ws & S1 & S2 & S3 & S4 & S5).
      + intros k Hk. apply B. lia.
      + now apply Forall_list_set.
      + rewrite list_set_length. lia.
      + exists ws. rewrite list_set_length in S2. repeat apply conj; auto.
        * intros k Hk. destruct (Nat.eq_dec k i) as [->|N].
          -- rewrite S5 by lia. rewrite nth_list_set by lia. now rewrite Nat.eqb_refl.
          -- apply S4. lia.
        * intros k Hk. rewrite S5 by lia. rewrite nth_list_set by lia.
          destruct (Nat.eqb_spec i k); [lia|reflexivity]. }
  intros i words B F L. destruct (G n i words B F L) as (ws & S1 & S2 & S3 & S4 & _). exists ws. auto.
Qed.

Lemma nwords_bound n i : 0 <= i < n -> i / 64 < nwords_of n.
Proof.
  intro H. unfold nwords_of.
  pose proof (Z.div_mod (n + 63) 64 ltac:(lia)). pose proof (Z.mod_pos_bound (n + 63) 64 ltac:(lia)).
  apply Z.div_lt_upper_bound; lia.
Qed.

Lemma be_eval_ok n e : 0 <= n < 2 ^ 16 -> be_masks (fun m => bm_exact m /\ bm_size m = n) e ->
  exists m, be_eval e = Some m /\ bm_exact m /\ bm_size m = n /\
    forall i, 0 <= i < 64 * nwords_of n -> mbit m i = be_bit e i.
Proof.
  intros Hn H. destruct (be_facts n e H) as (O & S & WS & B). unfold be_eval.
  rewrite O, S. cbn [negb]. rewrite bm_resize_words by lia. cbn [bm_words bm_size bm_empty].
  rewrite vec_resize_nil.
  destruct (be_store_ok e (be_wsize e) 0 (repeat 0 (Z.to_nat (nwords_of n)))) as (ws & S1 & S2 & S3 & S4).
  - intros k Hk. destruct (B k ltac:(lia)) as (w & W1 & W2 & _). eauto.
  - apply Forall_forall. intros x Hx. apply repeat_spec in Hx. lia.
  - rewrite repeat_length. lia.
  - rewrite S1. eexists. split; [reflexivity|]. rewrite repeat_length in S2.
    assert (U : u_cast 2 n = n) by (apply u_cast_id; change (8 * Z.of_nat 2) with 16; lia).
    assert (NN : 0 <= nwords_of n) by (unfold nwords_of; apply Z.div_pos; lia).
    assert (N64 : n <= 64 * nwords_of n).
    { unfold nwords_of. pose proof (Z.div_mod (n + 63) 64 ltac:(lia)). pose proof (Z.mod_pos_bound (n + 63) 64 ltac:(lia)). lia. }
    unfold bm_exact, bm_wf, zlen. cbn [bm_words bm_size]. rewrite U. repeat apply conj; auto; try lia.
    intros i Hi. assert (i / 64 < nwords_of n) by (apply Z.div_lt_upper_bound; lia).
    pose proof (Z.div_pos i 64 ltac:(lia) ltac:(lia)). pose proof (Z.mod_pos_bound i 64 ltac:(lia)).
    destruct (B (Z.to_nat (i / 64)) ltac:(lia)) as (w & W1 & W2 & W3).
    rewrite S4 in W1 by lia. inversion W1 as [W1'].
    unfold mbit. cbn [bm_words]. rewrite W1'. rewrite W3 by lia. f_equal.
    pose proof (Z.div_mod i 64 ltac:(lia)). lia.
Qed.

Lemma words_ext a b : Forall (fun w => 0 <= w < 2 ^ 64) a -> Forall (fun w => 0 <= w < 2 ^ 64) b ->
  length a = length b ->
  (forall k j, (k < length a)%nat -> 0 <= j < 64 -> Z.testbit (nth k a 0) j = Z.testbit (nth k b 0) j) -> a = b.
Proof.
  intros Fa Fb L H. apply (nth_ext a b 0 0 L). intros k Hk.
  apply Z.bits_inj'. intros j Hj. destruct (Z_lt_le_dec j 64); [apply H; auto|].
  rewrite Forall_forall in Fa, Fb.
  assert (0 <= nth k a 0 < 2 ^ 64) by (apply Fa, nth_In; lia).
  assert (0 <= nth k b 0 < 2 ^ 64) by (apply Fb, nth_In; lia).
  rewrite (testbit_high (nth k a 0) 64), (testbit_high (nth k b 0) 64) by lia. reflexivity.
Qed.

Lemma bm_eqb_ok a b : bm_exact a -> bm_exact b -> bm_clean a -> bm_clean b ->
  exists r, bm_eqb a b = Some r /\
    (r = true <-> (bm_size a = bm_size b /\ forall i, 0 <= i -> mbit a i = mbit b i)).
Proof.
  intros [Wa Ea] [Wb Eb] Ca Cb. unfold bm_eqb.
  destruct (Z.eqb_spec (bm_size a) (bm_size b)) as [S|S]; cbn [negb].
  - assert (LL : length (bm_words a) = length (bm_words b)) by (rewrite S in Ea; unfold zlen in *; lia).
    replace (length (bm_words b) <? length (bm_words a))%nat with false by lia.
    rewrite LL, firstn_all. eexists. split; [reflexivity|]. rewrite str_eqb_eq. split.
    + intro E. split; auto. intros i Hi. unfold mbit. now rewrite E.
    + intros [_ E]. destruct Wa as (Wa & _), Wb as (Wb & _). apply words_ext; auto.
      intros k j Hk Hj. specialize (E (Z.of_nat k * 64 + j) ltac:(lia)).
      rewrite !mbit_word in E by lia. now rewrite !Nat2Z.id in E.
  - exists false. split; auto. split; [discriminate|]. tauto.
Qed.

(** ** masks received from a peer *)
Lemma find_set_wf m start : bm_wf m -> 0 <= start ->
  exists r, find_set m start = Some r /\ (r = bm_size m \/ (start <= r < 64 * zlen (bm_words m) /\ mbit m r = true)).
Proof.
  intros W Hs. unfold find_set.
  assert (G : forall fuel start, 0 <= start ->
    (Z.of_nat (length (bm_words m)) < start / 64 + Z.of_nat fuel) -> (0 < fuel)%nat ->
    exists r, find_set_loop fuel m start = Some r /\ (r = bm_size m \/ (start <= r < 64 * zlen (bm_words m) /\ mbit m r = true))).
  2:{ apply G; auto; [pose proof (Z.div_pos start 64)|]; lia. }
  clear start Hs. induction fuel as [|fuel IH]; intros start Hs Hf F0; [lia|]. clear F0.
  cbn [find_set_loop].
  destruct (Z.ltb_spec start (bm_size m)) as [Lt|Ge]; cbn [negb]; [|eauto].
  assert (IW : (Z.to_nat (start / 64) < length (bm_words m))%nat).
  { destruct W as (_ & _ & W3). unfold zlen in W3.
    assert (start / 64 < Z.of_nat (length (bm_words m))) by (apply Z.div_lt_upper_bound; lia).
    pose proof (Z.div_pos start 64). lia. }
  pose proof (Z.div_pos start 64 ltac:(lia) ltac:(lia)) as SP.
  pose proof (Z.mod_pos_bound start 64 ltac:(lia)) as MB.
  pose proof (Z.div_mod start 64 ltac:(lia)) as DM.
  rewrite (nth_error_nth' _ 0 IW).
  pose proof (nth_wf m (Z.to_nat (start / 64)) W) as HW.
  set (w := nth (Z.to_nat (start / 64)) (bm_words m) 0) in *.
  set (masked := Z.land w _).
  assert (MBits : forall i, 0 <= i -> Z.testbit masked i = ((start mod 64 <=? i) && Z.testbit w i)).
  { intros i Hi. apply masked_bits; auto. }
  destruct (Z.eqb_spec masked 0) as [M0|M0].
  - destruct (IH ((start / 64 + 1) * 64)) as (r & R1 & R2).
    + lia.
    + rewrite Z.div_mul by lia. lia.
    + destruct fuel; [|lia]. exfalso. destruct W as (_ & _ & W3). unfold zlen in W3. lia.
    + exists r. split; auto. destruct R2 as [R2|[R2 R3]]; [now left|right]. split; auto. lia.
  - assert (MR : 0 < masked < 2 ^ 64).
    { assert (0 <= masked) by (unfold masked; apply Z.land_nonneg; lia).
      split; [lia|]. destruct (Z_lt_le_dec masked (2 ^ 64)) as [|Big]; auto. exfalso.
      assert (64 <= Z.log2 masked) by (change 64 with (Z.log2 (2 ^ 64)); apply Z.log2_le_mono; lia).
      assert (T : Z.testbit masked (Z.log2 masked) = true) by (apply Z.bit_log2; lia).
      rewrite MBits in T by lia. rewrite (testbit_high w 64) in T by lia. rewrite andb_false_r in T. discriminate. }
    destruct (lowest_bit masked ltac:(lia)) as (k & K0 & K1 & K2).
    assert (K64 : k < 64).
    { destruct (Z_lt_le_dec k 64); auto. rewrite (testbit_high masked 64 k) in K1 by lia. discriminate. }
    rewrite (isolate_lowest masked k) by auto. rewrite bit_search_pow2 by lia.
    pose proof (lor_shift_low (start / 64) k 6) as LS. change (2 ^ 6) with 64 in LS. rewrite LS by lia.
    exists (start / 64 * 64 + k). split; auto. right.
    rewrite MBits in K1 by lia. apply andb_true_iff in K1 as [K1a K1b].
    split; [unfold zlen; lia|]. rewrite mbit_word by lia. exact K1b.
Qed.

Lemma from_wire_u_range h n i b : is_bytes (rd b) -> 0 <= i < 2 ^ (8 * Z.of_nat n) ->
  0 <= fst (from_wire_u h n i b) < 2 ^ (8 * Z.of_nat n).
Proof.
  intros B Hi. unfold from_wire_u, from_wire_mem. destruct (rensure (Z.of_nat n) b) eqn:E; cbn [negb fst]; [|exact Hi].
  unfold rensure in E.
  assert (F : is_bytes (firstn n (rd b))).
  { unfold is_bytes in *. rewrite Forall_forall in *. intros x Hx. apply B.
    rewrite <- (firstn_skipn n (rd b)). apply in_or_app. now left. }
  assert (L : length (firstn n (rd b)) = n) by (rewrite firstn_length; unfold zlen in E; lia).
  set (l := firstn n (rd b)) in *.
  assert (G : forall q, is_bytes q -> length q = n -> 0 <= of_mem h q < 2 ^ (8 * Z.of_nat n)).
  { intros q Q LQ. unfold of_mem. destruct h.
    - rewrite <- LQ, <- (rev_length q). apply le_val_range. unfold is_bytes in *. now apply Forall_rev.
    - rewrite <- LQ. now apply le_val_range. }
  destruct (xorb _ _); apply G; auto.
  - unfold is_bytes in *. now apply Forall_rev.
  - now rewrite rev_length.
Qed.
Lemma safe_bytes b b' : safe_step b b' -> is_bytes (rd b) -> is_bytes (rd b').
Proof. intros [[u U] _] H. unfold is_bytes in *. rewrite U in H. now apply Forall_app in H. Qed.

Lemma from_wire_words_range h n : forall old b, is_bytes (rd b) -> Forall (fun w => 0 <= w < 2 ^ 64) old ->
  Forall (fun w => 0 <= w < 2 ^ 64) (fst (from_wire_words h n old b)) /\
  length (fst (from_wire_words h n old b)) = length old.
Proof.
  induction n as [|n IH]; intros old b B F; cbn [from_wire_words]; [destruct old; auto|].
  destruct old as [|o old]; [auto|]. inversion F; subst.
  pose proof (from_wire_u_range h 8 o b B H1) as R. pose proof (safe_from_wire_u h 8 o b) as S1.
  destruct (from_wire_u h 8 o b) as [v b1]. cbn [fst snd] in *.
  pose proof (IH old b1 (safe_bytes _ _ S1 B) H2) as [I1 I2].
  destruct (from_wire_words h n old b1) as [l b2]. cbn [fst] in *. split; [constructor; auto|cbn [length]; lia].
Qed.
Lemma from_wire_tail_range h n : forall i last b, is_bytes (rd b) -> 0 <= last < 2 ^ (8 * Z.of_nat i) ->
  0 <= fst (from_wire_tail h i n last b) < 2 ^ (8 * Z.of_nat (i + n)).
Proof.
  induction n as [|n IH]; intros i last b B L; cbn [from_wire_tail].
  - rewrite Nat.add_0_r. exact L.
  - pose proof (from_wire_u_range h 1 0 b B ltac:(change (2 ^ (8 * Z.of_nat 1)) with 256; lia)) as R.
    pose proof (safe_from_wire_u h 1 0 b) as S1.
    destruct (from_wire_u h 1 0 b) as [v b1]. cbn [fst snd] in *.
    replace (i + S n)%nat with (S i + n)%nat by lia. apply IH; [eapply safe_bytes; eauto|].
    change (2 ^ (8 * Z.of_nat 1)) with 256 in R.
    rewrite Z.shiftl_mul_pow2 by lia. rewrite Z.lor_comm, lor_shift_low by lia.
    rewrite pow256. pose proof (pow8_pos i). nia.
Qed.
Lemma from_wire_size_range h b : is_bytes (rd b) -> 0 <= fst (from_wire_size h 0 false b) <= 0xffffffff.
Proof.
  intro B. unfold from_wire_size. destruct (rensure 1 b) eqn:E; cbn [negb]; [|cbn; lia].
  assert (HB : 0 <= hd 0 (rd b) < 256).
  { unfold rensure in E. destruct (rd b) as [|x l] eqn:R; [cbn; lia|]. unfold is_bytes in B. inversion B; subst. exact H1. }
  destruct (Z.ltb_spec (hd 0 (rd b)) 254); [cbn [fst]; lia|].
  destruct (_ =? 254).
  - pose proof (from_wire_u_range h 4 0 (radvance 1 b)) as R. change (2 ^ (8 * Z.of_nat 4)) with 4294967296 in R.
    assert (is_bytes (rd (radvance 1 b))).
    { eapply safe_bytes; [|exact B]. now apply safe_advance. }
    specialize (R H0 ltac:(lia)). lia.
  - rewrite andb_false_r. cbn. lia.
Qed.

Lemma from_wire_mask_wf h b : is_bytes (rd b) ->
  bm_wf (fst (from_wire_mask h bm_empty b)).
Proof.
  intro B. unfold from_wire_mask.
  pose proof (from_wire_size_range h b B) as R. pose proof (safe_from_wire_size h 0 false b) as S1.
  destruct (from_wire_size h 0 false b) as [nb b1]. cbn [fst snd] in *.
  destruct (_ || _).
  { cbn [fst]. unfold bm_wf, bm_empty, zlen. cbn. repeat split; try lia. constructor. }
  rewrite bm_resize_words by lia. cbn [bm_words bm_empty bm_size]. rewrite vec_resize_nil.
  assert (NN : 0 <= nwords_of (8 * nb)) by (unfold nwords_of; apply Z.div_pos; lia).
  assert (N64 : 8 * nb <= 64 * nwords_of (8 * nb)).
  { unfold nwords_of. pose proof (Z.div_mod (8 * nb + 63) 64 ltac:(lia)). pose proof (Z.mod_pos_bound (8 * nb + 63) 64 ltac:(lia)). lia. }
  assert (U : 0 <= u_cast 2 (8 * nb) <= 8 * nb).
  { unfold u_cast. pose proof (Z.mod_pos_bound (8 * nb) (2 ^ (8 * Z.of_nat 2)) ltac:(apply pow8_pos)).
    split; [lia|]. apply Z.mod_le; [lia|apply pow8_pos]. }
  pose proof (u_cast_range 2 (8 * nb)) as U2. change (8 * Z.of_nat 2) with 16 in U2.
  assert (F0 : Forall (fun w => 0 <= w < 2 ^ 64) (repeat 0 (Z.to_nat (nwords_of (8 * nb))))).
  { apply Forall_forall. intros x Hx. apply repeat_spec in Hx. lia. }
  pose proof (from_wire_words_range h (Z.to_nat (nb / 8)) (repeat 0 (Z.to_nat (nwords_of (8 * nb)))) b1 (safe_bytes _ _ S1 B) F0) as [F1 L1].
  pose proof (safe_from_wire_words h (Z.to_nat (nb / 8)) (repeat 0 (Z.to_nat (nwords_of (8 * nb)))) b1) as S2.
  assert (LAST : forall ws b2, from_wire_words h (Z.to_nat (nb / 8)) (repeat 0 (Z.to_nat (nwords_of (8 * nb)))) b1 = (ws, b2) ->
     nth (Z.to_nat (nb / 8)) ws 0 = 0).
  { intros ws b2. generalize (Z.to_nat (nwords_of (8 * nb))). generalize (Z.to_nat (nb / 8)).
    clear. intros n k. revert k ws b1 b2. induction n as [|n IH]; intros k ws b1 b2 E; destruct k; cbn [repeat from_wire_words] in E.
    - inversion E; subst. reflexivity.
    - inversion E; subst. reflexivity.
    - inversion E; subst. reflexivity.
    - destruct (from_wire_u h 8 0 b1) as [v b3]. destruct (from_wire_words h n (repeat 0 k) b3) as [l b4] eqn:Q.
      inversion E; subst. cbn [nth]. eapply IH; eauto. }
  destruct (from_wire_words _ _ _ b1) as [ws b2]. cbn [fst snd] in *. rewrite repeat_length in L1.
  destruct (nb mod 8 =? 0).
  { cbn [fst]. unfold bm_wf, zlen. cbn [bm_words bm_size]. repeat apply conj; auto; lia. }
  rewrite (LAST ws b2 eq_refl).
  pose proof (from_wire_tail_range h (Z.to_nat (nb mod 8)) 0 0 b2 (safe_bytes _ _ S2 (safe_bytes _ _ S1 B)) ltac:(cbn; lia)) as RT.
  destruct (from_wire_tail _ _ _ _ b2) as [last b3]. cbn [fst] in *.
  unfold bm_wf, zlen. cbn [bm_words bm_size]. rewrite list_set_length. repeat apply conj; try lia.
  apply Forall_list_set; auto. split; [lia|]. eapply Z.lt_le_trans; [apply RT|].
  apply Z.pow_le_mono_r; [lia|]. pose proof (Z.mod_pos_bound nb 8 ltac:(lia)). lia.
Qed.
