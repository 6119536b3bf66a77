(** What a bit mask means: a set of bit numbers. *)
From Coq Require Import ZArith List Bool Sorted.
From Verif Require Import Base WireModel BitMaskModel.
Import ListNotations.
Local Open Scope Z_scope.

(** bit [i] is bit [i mod 64] of word [i / 64]; bits beyond the words are clear *)
Definition mbit (m : bmask) (i : Z) : bool :=
  Z.testbit (nth (Z.to_nat (i / 64)) (bm_words m) 0) (i mod 64).

(** what the type and BitMask::resize() ensure *)
Definition bm_wf (m : bmask) : Prop :=
  Forall (fun w => 0 <= w < 2 ^ 64) (bm_words m) /\
  0 <= bm_size m < 2 ^ 16 /\ bm_size m <= 64 * zlen (bm_words m).

(** no bit is set beyond the nominal size *)
Definition bm_clean (m : bmask) : Prop := forall i, bm_size m <= i -> mbit m i = false.

(** [r] is the least set bit not below [start], or the size when there is none *)
Definition first_set (m : bmask) (start r : Z) : Prop :=
  (start <= r /\ r < bm_size m /\ mbit m r = true /\ (forall j, start <= j < r -> mbit m j = false))
  \/ (r = bm_size m /\ forall j, start <= j -> mbit m j = false).

(** [l] lists exactly the set bits, each once, ascending *)
Definition lists_set_bits (m : bmask) (l : list Z) : Prop :=
  StronglySorted Z.lt l /\ forall i, 0 <= i -> (In i l <-> mbit m i = true).
