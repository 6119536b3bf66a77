(** What the operations give. *)

From Coq Require Import ZArith Bool String List Lia.
From Verif Require Import Base CopyModel ArrayModel ArraySpec ArrayProofs ArrayProofs2 ArrayProofs3.
Import ListNotations.

Section Ops.
  Variable fp : fpu.
  Notation step := (step fp).

  Lemma shown_is s v h : var s v = Some h -> shown s v = Some (elems s h).
  Proof. intros V. unfold shown. rewrite V. reflexivity. Qed.
  Lemma live_var s v : live s v -> exists h, var s v = Some h.
  Proof. unfold live. destruct (var s v) as [h|]; [eauto|congruence]. Qed.
  Lemma new_dead s : ~ live s (length (vars s)).
  Proof. intros L. apply live_var in L as [h L]. eapply var_new; eauto. Qed.
  Lemma elems_emptied s h : elems s (emptied h) = [].
  Proof. reflexivity. Qed.
  Lemma bufs_bind s h : bufs (fst (bind s h)) = bufs s.
  Proof. reflexivity. Qed.
  Lemma elems_fresh s t l c vd n : elems (alloc s t l) (Hd c vd t (Some (next s, 0%nat)) n) = firstn n l.
  Proof. unfold elems; simpl. rewrite mem_alloc_new. reflexivity. Qed.

  (** making [h'] of the memory of a variable which is then emptied *)
  Lemma take_over s v h h' : inv s -> var s v = Some h -> unique s h = true -> h_ptr h' = h_ptr h -> h_count h' = h_count h ->
    let s' := fst (bind (set s v (Some (emptied h))) h') in
    let w := length (vars s) in
    ~ live s w /\ var s' w = Some h' /\ shown s' w = shown s v /\ shown s' v = Some [] /\ others_kept s s' v /\ alone s' w.
  Proof.
    intros I V U P C. cbv zeta.
    assert (N : forall u, u <> v -> live s u -> var (fst (bind (set s v (Some (emptied h))) h')) u = var s u).
    { intros u D L. rewrite var_bind, vars_set_len.
      destruct (Nat.eqb_spec (length (vars s)) u) as [<-|]. { exfalso. eapply new_dead; eauto. }
      rewrite (var_set _ _ _ _ _ V). destruct (Nat.eqb_spec v u); congruence. }
    assert (W : var (fst (bind (set s v (Some (emptied h))) h')) (length (vars s)) = Some h').
    { rewrite var_bind, vars_set_len, Nat.eqb_refl. reflexivity. }
    split; [apply new_dead|]. split; [exact W|].
    split. { rewrite (shown_is _ _ _ W), (shown_is _ _ _ V). unfold elems. rewrite P, C. reflexivity. }
    split.
    { unfold shown. rewrite var_bind, vars_set_len.
      destruct (Nat.eqb_spec (length (vars s)) v) as [E|]. { exfalso. apply var_bound in V. lia. }
      rewrite (var_set _ _ _ _ _ V), Nat.eqb_refl. reflexivity. }
    split.
    { intros u D L. split; [|auto]. unfold shown. rewrite (N u D L). destruct (var s u); auto. }
    intros u D (h1 & h2 & b & o & p & W1 & U2 & P1 & P2).
    change (var (fst (bind (set s v (Some (emptied h))) h')) u = Some h2) in U2.
    change (var (fst (bind (set s v (Some (emptied h))) h')) (length (vars s)) = Some h1) in W1.
    rewrite W in W1. injection W1 as <-.
    rewrite var_bind, vars_set_len in U2. destruct (Nat.eqb_spec (length (vars s)) u); [congruence|].
    apply (emptied_alone s v h u h2 b V U U2); [exists p; auto|exists o; congruence].
  Qed.
  (** making [h'] of new memory, [v] being emptied *)
  Lemma copied_over s v h t l c vd n : inv s -> var s v = Some h -> firstn n l = elems s h ->
    let s' := fst (bind (set (alloc s t l) v (Some (emptied h))) (Hd c vd t (Some (next s, 0%nat)) n)) in
    let w := length (vars s) in
    ~ live s w /\ var s' w = Some (Hd c vd t (Some (next s, 0%nat)) n) /\ shown s' w = shown s v /\ shown s' v = Some []
    /\ others_kept s s' v /\ alone s' w.
  Proof.
    intros I V E. cbv zeta.
    set (h' := Hd c vd t (Some (next s, 0%nat)) n).
    set (s1 := alloc s t l).
    assert (V1 : var s1 v = Some h) by exact V.
    assert (N : forall u, u <> v -> live s u -> var (fst (bind (set s1 v (Some (emptied h))) h')) u = var s u).
    { intros u D L. rewrite var_bind, vars_set_len. unfold s1. rewrite vars_alloc.
      destruct (Nat.eqb_spec (length (vars s)) u) as [<-|]. { exfalso. eapply new_dead; eauto. }
      rewrite (var_set _ _ _ _ _ V1). destruct (Nat.eqb_spec v u); [congruence|]. reflexivity. }
    assert (W : var (fst (bind (set s1 v (Some (emptied h))) h')) (length (vars s)) = Some h').
    { rewrite var_bind, vars_set_len. unfold s1. rewrite vars_alloc, Nat.eqb_refl. reflexivity. }
    split; [apply new_dead|]. split; [exact W|].
    split.
    { rewrite (shown_is _ _ _ W), (shown_is _ _ _ V). f_equal.
      transitivity (elems s1 h'); [reflexivity|]. unfold s1, h'. rewrite elems_fresh. exact E. }
    split.
    { unfold shown. rewrite var_bind, vars_set_len. change (vars s1) with (vars s).
      destruct (Nat.eqb_spec (length (vars s)) v) as [Q|]. { exfalso. apply var_bound in V. lia. }
      rewrite (var_set _ _ _ _ _ V1), Nat.eqb_refl. reflexivity. }
    split.
    { intros u D L. split; [|auto]. unfold shown. rewrite (N u D L). destruct (var s u) as [hu|] eqn:Hu; auto.
      simpl. f_equal. transitivity (elems s1 hu); [reflexivity|]. apply elems_alloc. eapply inv_vars; eauto. }
    intros u D (h1 & h2 & b & o & p & W1 & U2 & P1 & P2).
    change (var (fst (bind (set s1 v (Some (emptied h))) h')) u = Some h2) in U2.
    change (var (fst (bind (set s1 v (Some (emptied h))) h')) (length (vars s)) = Some h1) in W1.
    rewrite W in W1. injection W1 as <-. simpl in P1. injection P1 as <- <-.
    rewrite var_bind, vars_set_len in U2. change (vars s1) with (vars s) in U2.
    destruct (Nat.eqb_spec (length (vars s)) u); [congruence|].
    rewrite (var_set _ _ _ _ _ V1) in U2. destruct (Nat.eqb v u).
    - injection U2 as <-. discriminate.
    - eapply (not_next s h2); [eapply inv_vars; eauto|exists p; auto].
  Qed.

  Lemma conv_same t e : pod_type t || (t =? at_String)%Z = true -> conv_elem fp t t e = CV e.
  Proof. intros T. unfold conv_elem. rewrite T, Z.eqb_refl. reflexivity. Qed.
  Lemma convert_same t l : pod_type t || (t =? at_String)%Z = true -> convert_arr fp t t l = CV l.
  Proof.
    intros T. unfold convert_arr. induction l as [|e l IH]; simpl; auto. rewrite conv_same, IH by auto. reflexivity.
  Qed.

  Lemma freeze_yes s v h : inv s -> var s v = Some h -> alone s v -> exists s' w,
    step s (Freeze v) = (s', Made w) /\ ~ live s w /\ typed s' w true (h_void h) (h_type h)
    /\ shown s' w = shown s v /\ shown s' v = Some [] /\ others_kept s s' v /\ alone s' w.
  Proof.
    intros I V A. apply (unique_alone _ _ _ V) in A as U.
    destruct (take_over s v h (Hd true (h_void h) (h_type h) (h_ptr h) (h_count h)) I V U eq_refl eq_refl)
      as (B & W & C & D & E & F).
    eexists _, _. split.
    { simpl. rewrite V. unfold freeze. rewrite U. simpl. unfold bind. rewrite vars_set_len. reflexivity. }
    split; [exact B|]. split; [eexists; split; [exact W|auto]|]. auto.
  Qed.
  Lemma freeze_no s v h : var s v = Some h -> ~ alone s v -> step s (Freeze v) = (s, Thrown XLogic).
  Proof.
    intros V A. simpl. rewrite V. unfold freeze. destruct (unique s h) eqn:U; auto.
    exfalso. apply A. apply (unique_alone _ _ _ V). exact U.
  Qed.
  Lemma thaw_yes s v h : inv s -> var s v = Some h ->
    alone s v \/ h_void h = false \/ (h_type h <> at_Value /\ h_type h <> at_Null) -> exists s' w,
    step s (Thaw v) = (s', Made w) /\ ~ live s w /\ typed s' w false (h_void h) (h_type h)
    /\ shown s' w = shown s v /\ shown s' v = Some [] /\ others_kept s s' v /\ alone s' w.
  Proof.
    intros I V A. pose proof (inv_vars _ I _ _ V) as O. destruct (unique s h) eqn:U.
    - destruct (take_over s v h (Hd false (h_void h) (h_type h) (h_ptr h) (h_count h)) I V U eq_refl eq_refl)
        as (B & W & C & D & E & F).
      eexists _, _. split.
      { simpl. rewrite V. unfold thaw. rewrite U. unfold bind. rewrite vars_set_len. reflexivity. }
      split; [exact B|]. split; [eexists; split; [exact W|auto]|]. auto.
    - assert (L : length (elems s h) = h_count h) by (apply elems_len; auto).
      assert (G : firstn (h_count h) (elems s h) = elems s h) by (apply firstn_all2; lia).
      destruct (copied_over s v h (h_type h) (elems s h) false (h_void h) (h_count h) I V G) as (B & W & C & D & E & F).
      exists (fst (bind (set (alloc s (h_type h) (elems s h)) v (Some (emptied h)))
                    (Hd false (h_void h) (h_type h) (Some (next s, 0%nat)) (h_count h)))), (length (vars s)). split.
      { simpl. rewrite V. unfold thaw. rewrite U. destruct (h_void h) eqn:Vd.
        - destruct A as [A|[A|[A1 A2]]]; [|discriminate|].
          { exfalso. apply (unique_alone _ _ _ V) in A. congruence. }
          assert (T : elem_type (h_type h) = true).
          { destruct (h_ptr h) as [[b o]|] eqn:P.
            - destruct (ho_buf _ _ O b o P) as (t & l & N & _ & [T|(_ & T & _)]); [|congruence].
              rewrite T. apply (inv_bufs _ I) in N as [N _]. exact N.
            - unfold unique in U. rewrite P in U. discriminate. }
          rewrite T. rewrite convert_same.
          + unfold bind. rewrite vars_set_len. reflexivity.
          + unfold elem_type in T. apply orb_prop in T as [T|T]; [exact T|]. apply Z.eqb_eq in T. congruence.
        - unfold bind. rewrite vars_set_len. reflexivity. }
      split; [exact B|]. split; [eexists; split; [exact W|auto]|]. auto.
  Qed.

  (** a new variable, the others as they were *)
  Lemma bound s h' : let s' := fst (bind s h') in let w := length (vars s) in
    ~ live s w /\ var s' w = Some h' /\ (forall u, live s u -> var s' u = var s u /\ shown s' u = shown s u).
  Proof.
    cbv zeta. split; [apply new_dead|]. split.
    - change (var (fst (bind s h')) (length (vars s)) = Some h'). rewrite var_bind, Nat.eqb_refl. reflexivity.
    - intros u L. apply live_var in L as [hu U]. pose proof (kept_bind s h' u hu U) as U'.
      split; [transitivity (Some hu); auto|]. rewrite (shown_is _ _ _ U). rewrite (shown_is _ _ _ U'). reflexivity.
  Qed.
  Lemma bound_fresh s t l h' : inv s -> let s' := fst (bind (alloc s t l) h') in let w := length (vars s) in
    ~ live s w /\ var s' w = Some h' /\ (forall u, live s u -> var s' u = var s u /\ shown s' u = shown s u).
  Proof.
    intros I. cbv zeta. split; [apply new_dead|]. split.
    - change (var (fst (bind (alloc s t l) h')) (length (vars (alloc s t l))) = Some h').
      rewrite var_bind, Nat.eqb_refl. reflexivity.
    - intros u L. apply live_var in L as [hu U].
      pose proof (kept_bind (alloc s t l) h' u hu U) as U'.
      split; [transitivity (Some hu); auto|]. rewrite (shown_is _ _ _ U). rewrite (shown_is _ _ _ U'). f_equal.
      transitivity (elems (alloc s t l) hu); [reflexivity|]. apply elems_alloc. eapply inv_vars; eauto.
  Qed.
End Ops.
