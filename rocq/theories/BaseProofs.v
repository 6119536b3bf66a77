(** Lemmas about bytes, lists and casts. *)
From Coq Require Import ZArith List Bool Lia ZifyBool ZifyNat.
From Verif Require Import Base.
Import ListNotations.
Local Open Scope Z_scope.

Lemma zlen_nonneg {A} (l : list A) : 0 <= zlen l.
Proof. unfold zlen; lia. Qed.
Lemma zlen_nil {A} : zlen (@nil A) = 0.
Proof. reflexivity. Qed.
Lemma zlen_cons {A} (x : A) l : zlen (x :: l) = 1 + zlen l.
Proof. unfold zlen; cbn [length]; lia. Qed.
Lemma zlen_app {A} (a b : list A) : zlen (a ++ b) = zlen a + zlen b.
Proof. unfold zlen; rewrite app_length; lia. Qed.
Lemma zlen_to_nat {A} (l : list A) : Z.to_nat (zlen l) = length l.
Proof. unfold zlen; lia. Qed.
Lemma zlen_rev {A} (l : list A) : zlen (rev l) = zlen l.
Proof. unfold zlen; now rewrite rev_length. Qed.

Lemma firstn_len_app {A} (a b : list A) : firstn (length a) (a ++ b) = a.
Proof. rewrite firstn_app, Nat.sub_diag, firstn_all, firstn_O, app_nil_r; reflexivity. Qed.
Lemma skipn_len_app {A} (a b : list A) : skipn (length a) (a ++ b) = b.
Proof. rewrite skipn_app, Nat.sub_diag, skipn_all, skipn_O; reflexivity. Qed.

Lemma str_eqb_eq a b : str_eqb a b = true <-> a = b.
Proof.
  revert b; induction a as [|x a IH]; destruct b as [|y b]; cbn; split; intro H; try congruence.
  - apply andb_prop in H as [H1 H2]. apply Z.eqb_eq in H1. apply IH in H2. congruence.
  - inversion H; subst. rewrite Z.eqb_refl. cbn. now apply IH.
Qed.
Lemma str_eqb_refl a : str_eqb a a = true.
Proof. now apply str_eqb_eq. Qed.
Lemma str_eqb_neq a b : str_eqb a b = false <-> a <> b.
Proof.
  split; intro H.
  - intro E. apply str_eqb_eq in E. congruence.
  - destruct (str_eqb a b) eqn:E; auto. apply str_eqb_eq in E. contradiction.
Qed.

Lemma str_ltb_irrefl a : str_ltb a a = false.
Proof. induction a as [|x a IH]; cbn; auto. rewrite Z.ltb_irrefl, Z.eqb_refl, IH. reflexivity. Qed.
Lemma str_ltb_trans a b c : str_ltb a b = true -> str_ltb b c = true -> str_ltb a c = true.
Proof.
  revert b c; induction a as [|x a IH]; destruct b as [|y b]; destruct c as [|z c]; cbn; intros H1 H2; try congruence.
  apply orb_prop in H1; apply orb_prop in H2.
  apply orb_true_intro.
  destruct H1 as [H1|H1]; destruct H2 as [H2|H2];
    try (apply andb_prop in H1 as [H1 H1']); try (apply andb_prop in H2 as [H2 H2']);
    try (left; lia).
  right. apply andb_true_intro; split; [lia|eauto].
Qed.
Lemma str_ltb_total a b : str_ltb a b = false -> str_ltb b a = false -> a = b.
Proof.
  revert b; induction a as [|x a IH]; destruct b as [|y b]; cbn; intros H1 H2; try congruence.
  apply orb_false_elim in H1 as [H1 H1']; apply orb_false_elim in H2 as [H2 H2'].
  assert (x = y) by lia. subst y.
  rewrite Z.eqb_refl in *. cbn in *. f_equal. auto.
Qed.

Lemma u_cast_range n v : 0 <= u_cast n v < 2 ^ (8 * Z.of_nat n).
Proof. unfold u_cast. apply Z.mod_pos_bound. apply Z.pow_pos_nonneg; lia. Qed.
Lemma u_cast_id n v : 0 <= v < 2 ^ (8 * Z.of_nat n) -> u_cast n v = v.
Proof. intro H; unfold u_cast; now apply Z.mod_small. Qed.

Lemma pow256 n : 2 ^ (8 * Z.of_nat (S n)) = 256 * 2 ^ (8 * Z.of_nat n).
Proof.
  replace (8 * Z.of_nat (S n)) with (8 + 8 * Z.of_nat n) by lia.
  rewrite Z.pow_add_r by lia. reflexivity.
Qed.
Lemma pow8_pos n : 0 < 2 ^ (8 * Z.of_nat n).
Proof. apply Z.pow_pos_nonneg; lia. Qed.

(** signed values survive a trip through their unsigned bit pattern *)
Lemma s_cast_u_cast n v :
  (0 < n)%nat ->
  - 2 ^ (8 * Z.of_nat n - 1) <= v < 2 ^ (8 * Z.of_nat n - 1) ->
  s_cast n (u_cast n v) = v.
Proof.
  intros Hn Hv. unfold s_cast, u_cast.
  assert (E : 2 ^ (8 * Z.of_nat n) = 2 * 2 ^ (8 * Z.of_nat n - 1)).
  { rewrite <- Z.pow_succ_r by lia. f_equal; lia. }
  assert (P : 0 < 2 ^ (8 * Z.of_nat n - 1)) by (apply Z.pow_pos_nonneg; lia).
  rewrite E in *. set (h := 2 ^ (8 * Z.of_nat n - 1)) in *.
  rewrite Z.mod_mod by lia.
  replace (2 * h / 2) with h by (rewrite Z.mul_comm, Z.div_mul; lia).
  destruct (Z_lt_le_dec v 0).
  - assert (M : v mod (2 * h) = v + 2 * h).
    { rewrite <- (Z_mod_plus_full v 1 (2 * h)). rewrite Z.mod_small; lia. }
    rewrite M. destruct (Z.ltb_spec (v + 2 * h) h); lia.
  - rewrite Z.mod_small by lia. destruct (Z.ltb_spec v h); lia.
Qed.

Lemma s_cast_range n v : (0 < n)%nat ->
  - 2 ^ (8 * Z.of_nat n - 1) <= s_cast n v < 2 ^ (8 * Z.of_nat n - 1).
Proof.
  intro Hn. unfold s_cast.
  assert (E : 2 ^ (8 * Z.of_nat n) = 2 * 2 ^ (8 * Z.of_nat n - 1)).
  { rewrite <- Z.pow_succ_r by lia. f_equal; lia. }
  assert (P : 0 < 2 ^ (8 * Z.of_nat n - 1)) by (apply Z.pow_pos_nonneg; lia).
  rewrite E. set (h := 2 ^ (8 * Z.of_nat n - 1)) in *.
  replace (2 * h / 2) with h by (rewrite Z.mul_comm, Z.div_mul; lia).
  pose proof (Z.mod_pos_bound v (2 * h)).
  destruct (Z.ltb_spec (v mod (2 * h)) h); lia.
Qed.
Lemma s_cast_mod n v : exists k, s_cast n v = v + k * 2 ^ (8 * Z.of_nat n).
Proof.
  unfold s_cast. pose proof (pow8_pos n) as P. set (m := 2 ^ (8 * Z.of_nat n)) in *.
  rewrite Z.mod_eq by lia.
  destruct (_ <? _).
  - exists (- (v / m)); lia.
  - exists (- (v / m) - 1); lia.
Qed.

Lemma skipn_skipn {A} x y (l : list A) : skipn x (skipn y l) = skipn (x + y) l.
Proof.
  revert l. induction y as [|y IH]; intro l.
  - now rewrite Nat.add_0_r.
  - destruct l; cbn [skipn]; [now rewrite !skipn_nil|].
    rewrite IH. now rewrite Nat.add_succ_r.
Qed.
