(** C120: version numbers. *)
From Coq Require Import ZArith Bool Lia.
From Verif Require Import AbiModel AbiSpec.
Local Open Scope Z_scope.

Lemma lor_add a b n : 0 <= n -> 0 <= b < 2 ^ n -> Z.lor (Z.shiftl a n) b = a * 2 ^ n + b.
Proof.
  intros N B. assert (D : Z.land (Z.shiftl a n) b = 0).
  { apply Z.bits_inj'. intros i I. rewrite Z.land_spec, Z.bits_0. destruct (Z.ltb_spec i n) as [L|L].
    - now rewrite Z.shiftl_spec_low.
    - destruct (Z.eq_dec b 0) as [->|NZ]; [now rewrite Z.bits_0, andb_false_r|]. rewrite (Z.bits_above_log2 b i), andb_false_r; [reflexivity|lia|]. apply Z.lt_le_trans with n; [|lia]. apply Z.log2_lt_pow2; lia. }
  rewrite <- Z.lxor_lor, <- Z.add_nocarry_lxor by exact D. now rewrite Z.shiftl_mul_pow2.
Qed.
Lemma value V R M P : fits V R M P -> VERSION_INT V R M P = V * 16777216 + R * 65536 + M * 256 + P.
Proof.
  intros (HV & HR & HM & HP). unfold VERSION_INT. rewrite <- !Z.lor_assoc. rewrite (lor_add M P 8) by (cbn; lia). rewrite (lor_add R _ 16) by (cbn; lia). rewrite (lor_add V _ 24) by (cbn; lia). cbn. lia.
Qed.
Lemma usual_abi v : usual v -> PVXS_ABI_VERSION v = major v * 16777216 + minor v * 65536.
Proof. intros (A & B & C & D). unfold PVXS_ABI_VERSION. rewrite value; [lia|]. unfold fits. lia. Qed.
Lemma usual_version v : usual v -> PVXS_VERSION v = major v * 16777216 + minor v * 65536 + maintenance v * 256.
Proof. intros U. unfold PVXS_VERSION. rewrite value; [lia|exact U]. Qed.

(** The check succeeds exactly if the library may be used. *)
Theorem C120_check_partial : forall headers library, usual headers -> usual library -> (version_abi_check headers library = true <-> compatible headers library).
Proof.
  intros h l H L. unfold version_abi_check, compatible. rewrite andb_true_iff, Z.eqb_eq, Z.leb_le, !usual_abi, !usual_version by assumption.
  destruct H as (? & ? & ? & _), L as (? & ? & ? & _). lia.
Qed.
(** Comparing the numbers is comparing versions, as programs do to support several of them. *)
Theorem C120_order_partial : forall a b, usual a -> usual b -> (PVXS_VERSION a < PVXS_VERSION b <-> older a b) /\ (PVXS_VERSION a = PVXS_VERSION b <-> a = b).
Proof.
  intros a b A B. unfold older. rewrite !usual_version by assumption. destruct A as (? & ? & ? & _), B as (? & ? & ? & _). split; [lia|].
  destruct a as [x y z], b as [x' y' z']; cbn [major minor maintenance] in *. split; [|congruence]. intro E. f_equal; lia.
Qed.
(** The numbers tell what they are made of. *)
Theorem C120_unique_partial : forall V R M P V' R' M' P', fits V R M P -> fits V' R' M' P' -> VERSION_INT V R M P = VERSION_INT V' R' M' P' -> V = V' /\ R = R' /\ M = M' /\ P = P'.
Proof. intros V R M P V' R' M' P' A B E. rewrite !value in E by assumption. unfold fits in *. lia. Qed.
(** A number of 256 or more runs into the one before it: the check then takes another ABI for the same. *)
Theorem C120_large_refuted : exists headers library, 0 <= minor headers /\ 0 <= minor library /\ version_abi_check headers library = true /\ ~ compatible headers library.
Proof. exists {| major := 1; minor := 256; maintenance := 0 |}, {| major := 1; minor := 0; maintenance := 0 |}. cbn. repeat split; try lia. intros (_ & E & _). discriminate E. Qed.

Definition current : version := {| major := 1; minor := 3; maintenance := 2 |}.
Example C120_example : usual current /\ version_abi_check {| major := 1; minor := 3; maintenance := 1 |} current = true /\ version_abi_check {| major := 1; minor := 3; maintenance := 3 |} current = false /\
  version_abi_check {| major := 1; minor := 2; maintenance := 4 |} current = false /\ older {| major := 1; minor := 2; maintenance := 4 |} current.
Proof. unfold usual, fits, older. cbn. repeat split; try reflexivity; lia. Qed.

Print Assumptions C120_check_partial.
Print Assumptions C120_order_partial.
Print Assumptions C120_unique_partial.
Print Assumptions C120_large_refuted.
