(** What an operation leaves alone. *)

From Coq Require Import ZArith Bool String List Lia.
From Verif Require Import Base CopyModel ArrayModel ArraySpec ArrayProofs ArrayProofs2.
Import ListNotations.

Section Frame.
  Variable fp : fpu.
  Notation step := (step fp).

  Lemma kept_bind s h0 v h : var s v = Some h -> var (fst (bind s h0)) v = Some h.
  Proof.
    intros V. rewrite var_bind. destruct (Nat.eqb_spec (length (vars s)) v) as [<-|]; auto.
    exfalso. eapply var_new; eauto.
  Qed.
  Lemma kept_set s w o hw v h : var s w = Some hw -> w <> v -> var s v = Some h -> var (set s w o) v = Some h.
  Proof. intros W D V. rewrite (var_set _ _ _ _ _ W). destruct (Nat.eqb_spec w v); [congruence|auto]. Qed.

  Ltac opened H :=
    unfold build, empty, alloc_array, move, assign, move_assign, swap, slice, write, resize, freeze, thaw, cast_void,
      convert_to, cast_to, at_ in H;
    repeat (match type of H with
            | context [match ?x with _ => _ end] => destruct x eqn:?
            end; try (injection H as <- <-; auto; fail)).
  Ltac fin H := injection H as <- <-.

  Lemma step_kept s o s' r v h : step s o = (s', r) -> leaves v o -> var s v = Some h -> var s' v = Some h.
  Proof.
    intros H L V.
    destruct o; simpl in H, L;
      try (destruct (var s d) as [hd|] eqn:D; [|fin H; auto]);
      try (destruct (var s v0) as [h0|] eqn:V0; [|fin H; auto]);
      opened H; fin H; auto;
      try (apply (kept_bind s); auto; fail);
      try (apply (kept_bind (alloc s _ _)); auto; fail);
      try (eapply kept_set; eauto; fail);
      try (apply (kept_bind (set s _ _)); eapply kept_set; eauto; fail);
      try (apply (kept_bind (set (alloc s _ _) _ _)); eapply kept_set; [rewrite var_alloc; eauto|auto|auto]; fail);
      try (destruct L as [L1 L2]; eapply kept_set; eauto; fail).
    - destruct L as [L1 L2]. eapply (kept_set _ _ _ h0); [|auto|eapply kept_set; eauto].
      rewrite (var_set _ _ _ _ _ D). destruct (Nat.eqb_spec d v0); congruence.
    - destruct L as [L1 L2]. eapply (kept_set _ _ _ (if Nat.eqb v0 w then h1 else h1)); [|auto|eapply kept_set; eauto].
      rewrite (var_set _ _ _ _ _ V0). destruct (Nat.eqb v0 w); auto.
  Qed.

  Lemma step_next s o s' r : step s o = (s', r) -> (next s <= next s')%nat.
  Proof.
    intros H.
    destruct o; simpl in H;
      try (destruct (var s d) as [hd|] eqn:D; [|fin H; auto]);
      try (destruct (var s v) as [h0|] eqn:V0; [|fin H; auto]);
      opened H; fin H; auto; unfold next; simpl; rewrite ?app_length, ?upd_len; simpl; lia.
  Qed.

  Lemma step_mem s o s' r b : step s o = (s', r) -> (b < next s)%nat ->
    memory s' b = memory s b \/ exists w i e hw, o = Write w i e /\ var s w = Some hw /\ refers hw b /\ h_const hw = false.
  Proof.
    intros H L.
    destruct o; simpl in H;
      try (destruct (var s d) as [hd|] eqn:D; [|fin H; auto]);
      try (destruct (var s v) as [h0|] eqn:V0; [|fin H; auto]);
      opened H; fin H; auto; try (left; apply mem_alloc_old; auto; fail).
    destruct (Nat.eq_dec n b) as [->|N].
    - right. exists v, i, e, h0. repeat split; auto.
      + exists n0. auto.
      + apply orb_false_iff in Heqb0 as [G _]. apply orb_false_iff in G as [_ G]. exact G.
    - left. unfold memory; simpl.
      destruct (nth_error (upd (bufs s) n (fst (nth n (bufs s) (0%Z, [])), upd (snd (nth n (bufs s) (0%Z, []))) (n0 + i) e)) b) as [x|] eqn:E.
      + rewrite (nth_error_nth _ _ _ E). rewrite upd_nth in E. destruct (Nat.eqb_spec n b); [congruence|].
        rewrite (nth_error_nth _ _ _ E). reflexivity.
      + apply nth_error_None in E. rewrite upd_len in E. unfold next in L. lia.
  Qed.

  (** What refers to old memory afterwards was made from a variable which did
      before, and which the operation used or left. *)
  Lemma step_refers s o s' r v : inv s -> step s o = (s', r) -> ignores v o ->
    forall w hw b, w <> v -> var s' w = Some hw -> refers hw b -> (b < next s)%nat ->
    exists w0 h0, w0 <> v /\ var s w0 = Some h0 /\ refers h0 b.
  Proof.
    intros I H G w hw b N W R L. revert w hw N W R.
    set (K := exists w0 h0, w0 <> v /\ var s w0 = Some h0 /\ refers h0 b).
    set (good := fun s1 => forall w hw, w <> v -> var s1 w = Some hw -> refers hw b -> K).
    change (good s').
    assert (gs : good s) by (intros w hw N W R; exists w, hw; auto).
    assert (ga : forall t l, good (alloc s t l)) by (intros t l; exact gs).
    assert (gb : forall s1 h, good s1 -> (refers h b -> K) -> good (fst (bind s1 h))).
    { intros s1 h G1 G2 w hw N W R. rewrite var_bind in W. destruct (Nat.eqb (length (vars s1)) w); [|eapply G1; eauto].
      injection W as ->. auto. }
    assert (gt : forall s1 u o1 h1, good s1 -> var s1 u = Some h1 -> (forall h, o1 = Some h -> refers h b -> K) -> good (set s1 u o1)).
    { intros s1 u o1 h1 G1 U G2 w hw N W R. rewrite (var_set _ _ _ _ _ U) in W. destruct (Nat.eqb u w); [|eapply G1; eauto].
      eapply G2; eauto. }
    assert (src : forall u h h', u <> v -> var s u = Some h -> h_ptr h' = h_ptr h -> refers h' b -> K).
    { intros u h h' N U E [o1 P]. exists u, h. repeat split; auto. exists o1. congruence. }
    assert (none : forall h c vd t n, h = Hd c vd t None n -> refers h b -> K) by (intros ? ? ? ? ? -> [o1 P]; discriminate).
    assert (fr : forall c vd t n, refers (Hd c vd t (Some (next s, 0%nat)) n) b -> K).
    { intros c vd t n Q. apply refers_fresh in Q. lia. }
    assert (ge : forall u h, var s u = Some h -> good (set s u (Some (emptied h)))).
    { intros u h U. eapply gt; eauto. intros h' E. injection E as <-. eapply none; reflexivity. }
    destruct o; simpl in H, G;
      try (destruct (var s d) as [hd|] eqn:D; [|fin H; exact gs]);
      try (destruct (var s v0) as [h0|] eqn:V0; [|fin H; exact gs]);
      opened H; fin H; try exact gs;
      try (apply (gb s); [exact gs|eauto]; fail);
      try (apply (gb (alloc s _ _)); [apply ga|eauto]; fail);
      try (apply (gb (set s _ _)); [apply ge; auto|eauto]; fail);
      try (destruct G as [G1 G2]).
    - eapply gt; eauto. intros h' E. injection E as <-. eapply src; eauto.
    - eapply gt; eauto. intros h' E. injection E as <-. eapply src; eauto.
    - eapply gt; eauto. intros h' E. injection E as <-. eapply src; eauto.
    - eapply (gt _ _ _ h0).
      + eapply gt; eauto. intros h' E. injection E as <-. eapply src; eauto.
      + rewrite (var_set _ _ _ _ _ D). destruct (Nat.eqb d v0); auto.
      + intros h' E. injection E as <-. eapply none; reflexivity.
    - apply ge; auto.
    - eapply gt; eauto. discriminate.
    - eapply (gt _ _ _ (if Nat.eqb v0 w then h else h)).
      + eapply gt; eauto. intros h' E. injection E as <-. eapply src; [exact G2| |reflexivity]; auto.
      + rewrite (var_set _ _ _ _ _ V0). destruct (Nat.eqb v0 w); auto.
      + intros h' E. injection E as <-. apply (src v0 h0 h0); auto.
    - apply (gb s); [exact gs|]. intros [o1 P]. simpl in P. exists v0, h0. repeat split; auto. exists n1. congruence.
    - eapply gt; [apply ga|rewrite var_alloc; eauto|]. intros h' E. injection E as <-. apply fr.
    - eapply gt; [apply ga|rewrite var_alloc; eauto|]. intros h' E. injection E as <-. apply fr.
  Qed.

  (** ** Over a history *)

  Lemma elems_mem s s' h : (forall b, refers h b -> memory s' b = memory s b) -> elems s' h = elems s h.
  Proof.
    intros M. unfold elems. destruct (h_ptr h) as [[b o]|] eqn:P; auto. rewrite (M b); auto. exists o; auto.
  Qed.
  Lemma runs_frozen s l s' v h : inv s -> runs fp s l s' -> Forall (leaves v) l -> var s v = Some h -> h_const h = true ->
    var s' v = Some h /\ elems s' h = elems s h.
  Proof.
    intros I R. induction R as [s|s o l s1 r s2 H U R IH]; intros F V C; auto.
    inversion F as [|? ? L F']; subst.
    destruct (IH (inv_step _ _ _ _ _ I H) F' (step_kept _ _ _ _ _ _ H L V) C) as [A B]. split; auto.
    rewrite B. apply elems_mem. intros b Rb.
    destruct (step_mem _ _ _ _ b H (refers_bound _ _ _ (inv_vars _ I _ _ V) Rb)) as [M|(w & i & e & hw & _ & W & Rw & Cw)]; auto.
    exfalso. pose proof (inv_const _ I _ _ _ _ _ V W Rb Rw). congruence.
  Qed.
  Lemma ignores_leaves v o : ignores v o -> leaves v o.
  Proof. destruct o; simpl; tauto. Qed.
  Lemma runs_private s l s' v h : inv s -> runs fp s l s' -> Forall (ignores v) l -> var s v = Some h -> unique s h = true ->
    var s' v = Some h /\ elems s' h = elems s h /\ unique s' h = true.
  Proof.
    intros I R. induction R as [s|s o l s1 r s2 H U R IH]; intros F V C; auto.
    inversion F as [|? ? L F']; subst.
    pose proof (inv_step _ _ _ _ _ I H) as I1.
    pose proof (step_kept _ _ _ _ _ _ H (ignores_leaves _ _ L) V) as V1.
    pose proof (inv_vars _ I _ _ V) as O.
    assert (C1 : unique s1 h = true).
    { apply (unique_iff _ _ _ V1). intros w hw b N W R1 R2.
      destruct (step_refers _ _ _ _ _ I H L w hw b N W R2 (refers_bound _ _ _ O R1)) as (w0 & h0 & N0 & W0 & R0).
      apply (proj1 (unique_iff _ _ _ V) C w0 h0 b); auto. }
    destruct (IH I1 F' V1 C1) as (A & B & D). split; auto. split; auto.
    rewrite B. apply elems_mem. intros b Rb.
    destruct (step_mem _ _ _ _ b H (refers_bound _ _ _ O Rb)) as [M|(w & i & e & hw & -> & W & Rw & Cw)]; auto.
    exfalso. simpl in L. apply (proj1 (unique_iff _ _ _ V) C w hw b); auto.
  Qed.
End Frame.
