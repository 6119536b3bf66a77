(** Every operation keeps the invariant, and what it leaves alone. *)

From Coq Require Import ZArith Bool String List Lia.
From Verif Require Import Base CopyModel ArrayModel ArraySpec ArrayProofs.
Import ListNotations.

Lemma eqb_handle_const a b : same_type a b = true -> h_const a = h_const b /\ h_void a = h_void b.
Proof.
  unfold same_type. intros H. apply andb_prop in H as [H _]. apply andb_prop in H as [A B].
  split; apply eqb_prop; auto.
Qed.

Section Step.
  Variable fp : fpu.
  Notation step := (step fp).

  Lemma fresh_handle s c vd t l n : (n <= length l)%nat -> elem_type t = true ->
    handle_ok (alloc s t l) (Hd c vd t (Some (next s, 0%nat)) n).
  Proof.
    intros L T. split; simpl; auto; [discriminate|]. intros b o H. injection H as <- <-.
    exists t, l. split; [|split; [simpl; lia|auto]].
    unfold alloc, next; simpl. rewrite nth_error_app2, Nat.sub_diag by lia. reflexivity.
  Qed.
  Lemma not_next s h : handle_ok s h -> refers h (next s) -> False.
  Proof. intros O R. apply (refers_bound _ _ _ O) in R. lia. Qed.
  Lemma refers_fresh s c vd t n b : refers (Hd c vd t (Some (next s, 0%nat)) n) b -> b = next s.
  Proof. intros [o P]. simpl in P. congruence. Qed.
  (** a variable which refers to memory [h] refers to *)
  Lemma bind_fresh s t l c vd n : inv s -> elem_type t = true -> forallb (fits t) l = true -> (n <= length l)%nat ->
    inv (fst (bind (alloc s t l) (Hd c vd t (Some (next s, 0%nat)) n))).
  Proof.
    intros I T F L. apply inv_bind; [apply inv_alloc; auto|apply fresh_handle; auto|].
    intros w hw b W R Q. exfalso. apply refers_fresh in Q as ->. eapply not_next; [eapply inv_vars; eauto|auto].
  Qed.
  Lemma bind_like s v h h' : inv s -> var s v = Some h -> handle_ok s h' -> h_const h' = h_const h ->
    (forall b, refers h' b -> refers h b) -> inv (fst (bind s h')).
  Proof.
    intros I V O C R. apply inv_bind; auto. intros w hw b W Rw Rb. rewrite C.
    eapply inv_const; [exact I|exact W|exact V|exact Rw|apply R; auto].
  Qed.

  Lemma inv_build s c t l s' r : inv s -> build s c t l = (s', r) -> inv s'.
  Proof.
    intros I. unfold build. destruct (elem_type t) eqn:T; simpl; [|intros H; injection H as <- <-; auto].
    destruct (forallb (fits t) l) eqn:F; intros H; [|injection H as <- <-; auto].
    injection H as <- <-. apply (bind_fresh s t l c false (length l)); auto.
  Qed.
  Lemma inv_alloc_array s t n s' r : inv s -> alloc_array s t n = (s', r) -> inv s'.
  Proof.
    intros I. unfold alloc_array. destruct (elem_type t) eqn:T; intros H; [|injection H as <- <-; auto].
    injection H as <- <-. apply (bind_fresh s t (repeat (fresh t) n) false true n); auto.
    - apply fits_fresh; auto.
    - rewrite repeat_length. lia.
  Qed.
  Lemma inv_write s v h i e s' r : inv s -> var s v = Some h -> write s h i e = (s', r) -> inv s'.
  Proof.
    intros I V. unfold write.
    destruct (h_void h || h_const h || negb (fits (h_type h) e)) eqn:G; [intros H; injection H as <- <-; auto|].
    destruct (h_ptr h) as [[b o]|] eqn:P; [|intros H; injection H as <- <-; auto].
    destruct (Nat.ltb_spec i (h_count h)) as [L|L]; intros H; [|injection H as <- <-; auto].
    injection H as <- <-.
    apply orb_false_iff in G as [G F]. apply orb_false_iff in G as [G1 G2]. apply negb_false_iff in F.
    pose proof (inv_vars _ I _ _ V) as O. destruct (ho_buf _ _ O b o P) as (t & l & N & K & T).
    destruct T as [T|(T & _)]; [|congruence].
    unfold memory. rewrite (nth_error_nth _ _ _ N). simpl.
    assert (NB : (b < length (bufs s))%nat) by (apply nth_error_Some; congruence).
    split.
    - intros w hw W. change (var s w = Some hw) in W. pose proof (inv_vars _ I _ _ W) as [A B C]. split; auto.
      intros b' o' P'. destruct (B b' o' P') as (t' & l' & N' & K' & T'). simpl. rewrite upd_nth.
      destruct (Nat.eqb_spec b b') as [<-|D].
      + rewrite N in N'. injection N' as <- <-. apply Nat.ltb_lt in NB. rewrite NB.
        exists t, (upd l (o + i) e). rewrite upd_len. auto.
      + exists t', l'. auto.
    - intros b' t' l' N'. simpl in N'. rewrite upd_nth in N'. destruct (Nat.eqb_spec b b') as [<-|D].
      + apply Nat.ltb_lt in NB. rewrite NB in N'. injection N' as <- <-.
        destruct (inv_bufs _ I _ _ _ N) as [T1 T2]. split; auto.
        apply forallb_forall. intros x X. apply In_nth_error in X as [n X]. rewrite upd_nth in X.
        destruct (Nat.eqb (o + i) n).
        * destruct (Nat.ltb (o + i) (length l)); [|discriminate]. injection X as <-. congruence.
        * rewrite forallb_forall in T2. apply T2. eapply nth_error_In; eauto.
      + eapply inv_bufs; eauto.
    - intros v1 w1 h1 h2 b' V1 W1. eapply inv_const; eauto.
  Qed.
  Lemma inv_resize s v h n s' r : inv s -> var s v = Some h -> resize s v h n = (s', r) -> inv s'.
  Proof.
    intros I V. unfold resize.
    destruct (h_void h || h_const h) eqn:G; [intros H; injection H as <- <-; auto|].
    destruct (negb (unique s h) || negb (Nat.eqb n (h_count h))) eqn:U; intros H; injection H as <- <-; auto.
    apply orb_false_iff in G as [G1 G2].
    pose proof (inv_vars _ I _ _ V) as O. pose proof (ho_type _ _ O G1) as T.
    assert (F : forallb (fits (h_type h)) (firstn n (elems s h) ++ repeat (fresh (h_type h)) (n - length (firstn n (elems s h)))) = true).
    { rewrite forallb_app, (fits_fresh (h_type h)) by auto. rewrite andb_true_r.
      apply (forallb_sub _ _ n 0). simpl. apply elems_fit; auto. }
    eapply inv_set; [apply inv_alloc; auto|rewrite var_alloc; eauto|apply fresh_handle; auto|].
    - rewrite app_length, repeat_length. lia.
    - intros w hw b D W R Q. exfalso. apply refers_fresh in Q as ->. rewrite var_alloc in W.
      eapply not_next; [eapply inv_vars; eauto|auto].
  Qed.
  (** once a variable which was alone is emptied, nothing refers to its memory *)
  Lemma emptied_alone s v h w hw b : var s v = Some h -> unique s h = true ->
    var (set s v (Some (emptied h))) w = Some hw -> refers hw b -> refers h b -> False.
  Proof.
    intros V U W R Q. rewrite (var_set _ _ _ _ _ V) in W. destruct (Nat.eqb_spec v w) as [->|D].
    - injection W as <-. destruct R as [o P]. discriminate.
    - apply (proj1 (unique_iff _ _ _ V) U w hw b); auto.
  Qed.
  Lemma inv_freeze s v h s' r : inv s -> var s v = Some h -> freeze s v h = (s', r) -> inv s'.
  Proof.
    intros I V. unfold freeze. destruct (unique s h) eqn:U; simpl negb; cbv iota; intros H; [|injection H as <- <-; auto].
    injection H as <- <-.
    apply (inv_bind (set s v (Some (emptied h))) (Hd true (h_void h) (h_type h) (h_ptr h) (h_count h))).
    - apply inv_empty; auto.
    - apply (handle_ok_bufs s); auto. destruct (inv_vars _ I _ _ V) as [A B C]. split; simpl; auto.
    - intros w hw b W R Q. exfalso. exact (emptied_alone s v h w hw b V U W R Q).
  Qed.
  Lemma inv_thaw s v h s' r : inv s -> var s v = Some h -> thaw fp s v h = (s', r) -> inv s'.
  Proof.
    intros I V. unfold thaw. pose proof (inv_vars _ I _ _ V) as O. destruct (unique s h) eqn:U.
    - intros H. injection H as <- <-.
      apply (inv_bind (set s v (Some (emptied h))) (Hd false (h_void h) (h_type h) (h_ptr h) (h_count h))).
      + apply inv_empty; auto.
      + apply (handle_ok_bufs s); auto. destruct O as [A B C]. split; simpl; auto.
      + intros w hw b W R Q. exfalso. exact (emptied_alone s v h w hw b V U W R Q).
    - assert (G : forall l vd, elem_type (h_type h) = true -> forallb (fits (h_type h)) l = true -> length l = h_count h ->
        inv (fst (bind (set (alloc s (h_type h) l) v (Some (emptied h))) (Hd false vd (h_type h) (Some (next s, 0%nat)) (h_count h))))).
      { intros l vd T F L. apply inv_bind.
        - apply inv_empty; [apply inv_alloc; auto|auto].
        - apply (handle_ok_bufs (alloc s (h_type h) l)); auto. apply fresh_handle; auto. lia.
        - intros w hw b W R Q. exfalso. apply refers_fresh in Q as ->.
          rewrite (var_set (alloc s (h_type h) l) v _ w h V) in W. destruct (Nat.eqb v w).
          + injection W as <-. destruct R as [o P]. discriminate.
          + eapply not_next; [eapply inv_vars; eauto|auto]. }
      destruct (h_void h) eqn:Vd.
      + destruct (elem_type (h_type h)) eqn:T; [|intros H; injection H as <- <-; auto].
        destruct (convert_arr fp (h_type h) (h_type h) (elems s h)) as [l|x] eqn:E; intros H; injection H as <- <-; auto.
        apply convert_fits in E as [F L]; [|apply elems_fit; auto]. rewrite elems_len in L by auto. apply G; auto.
      + intros H. injection H as <- <-. apply G; auto.
        * apply (ho_type _ _ O Vd).
        * apply elems_fit; auto.
        * apply elems_len; auto.
  Qed.

  Lemma inv_cast_to s t v h s' r : inv s -> var s v = Some h -> cast_to s t h = (s', r) -> inv s'.
  Proof.
    intros I V. pose proof (inv_vars _ I _ _ V) as O. unfold cast_to.
    destruct (elem_type t) eqn:T; simpl negb; cbv iota; [|intros H; injection H as <- <-; auto].
    destruct (h_void h) eqn:Vd.
    - destruct (match h_ptr h with Some _ => true | None => false end && negb (h_type h =? t)%Z) eqn:G;
        intros H; injection H as <- <-; auto.
      apply (bind_like s v h (Hd (h_const h) false t (h_ptr h) (h_count h))); auto.
      destruct O as [A B C]. split; simpl; auto. intros b o P. destruct (B b o P) as (t' & l & N & L & Q).
      exists t', l. repeat split; auto. left.
      rewrite P in G. simpl in G. apply negb_false_iff, Z.eqb_eq in G. destruct Q as [Q|(_ & Q & _)]; [congruence|].
      exfalso. subst. rewrite Q in T. vm_compute in T. discriminate.
    - destruct (h_type h =? t)%Z; intros H; injection H as <- <-; auto. apply (bind_like s v h h); auto.
  Qed.

  Lemma inv_step s o s' r : inv s -> step s o = (s', r) -> inv s'.
  Proof.
    intros I H.
    destruct o; simpl in H;
      try (destruct (var s d) as [hd|] eqn:D; [|injection H as <- <-; auto]);
      try (destruct (var s v) as [h|] eqn:V; [|injection H as <- <-; auto]).
    - eapply inv_build; eauto.
    - unfold empty in H. destruct (vd || elem_type t) eqn:T; injection H as <- <-; auto.
      apply (inv_bind s (Hd c vd t None 0)); auto.
      + split; simpl; auto; [discriminate|]. intros ->. exact T.
      + intros w hw b _ _ [o P]. discriminate.
    - eapply inv_alloc_array; eauto.
    - injection H as <- <-. apply (bind_like s v h h); auto. eapply inv_vars; eauto.
    - injection H as <- <-.
      apply (inv_bind (set s v (Some (emptied h))) h).
      + apply inv_empty; auto.
      + apply (handle_ok_bufs s); auto. eapply inv_vars; eauto.
      + intros w hw b W R Q. rewrite (var_set _ _ _ _ _ V) in W. destruct (Nat.eqb v w).
        * injection W as <-. reflexivity.
        * eapply inv_const; [exact I|exact W|exact V|eauto|eauto].
    - unfold assign in H. destruct (same_type hd h) eqn:S; injection H as <- <-; auto.
      eapply inv_set; eauto; [eapply inv_vars; eauto|].
      intros w hw b _ W R Q. eapply inv_const; [exact I|exact W|exact V|eauto|eauto].
    - unfold move_assign in H. destruct (same_type hd h) eqn:S; [|injection H as <- <-; auto].
      destruct (Nat.eqb_spec d v) as [->|N]; injection H as <- <-.
      + eapply inv_set; eauto.
        * destruct (inv_vars _ I _ _ V) as [A B C]. split; simpl; auto.
          -- intros b o P. destruct (B b o P) as (t & l & N & L & T). exists t, l. split; auto. split; [simpl; lia|].
             destruct (h_void h); auto. destruct T as [T|(T & _)]; [auto|discriminate].
          -- intros E. rewrite E. auto.
        * intros w hw b W' W R [o Q]. simpl in Q |- *. eapply inv_const; [exact I|exact W|exact V|eauto|exists o; eauto].
      + assert (I1 : inv (set s d (Some h))).
        { eapply inv_set; eauto; [eapply inv_vars; eauto|].
          intros w hw b _ W R Q. eapply inv_const; [exact I|exact W|exact V|eauto|eauto]. }
        assert (V1 : var (set s d (Some h)) v = Some h).
        { rewrite (var_set _ _ _ _ _ D). destruct (Nat.eqb d v); auto. }
        apply inv_empty; auto.
    - injection H as <- <-. apply inv_empty; auto.
    - injection H as <- <-. eapply inv_unset; eauto.
    - destruct (var s w) as [hw|] eqn:W; [|injection H as <- <-; auto].
      unfold swap in H. destruct (same_type h hw) eqn:S; injection H as <- <-; auto.
      assert (I1 : inv (set s v (Some hw))).
      { eapply inv_set; eauto; [eapply inv_vars; eauto|].
        intros u hu b _ U R Q. eapply inv_const; [exact I|exact U|exact W|eauto|eauto]. }
      assert (W1 : exists h0, var (set s v (Some hw)) w = Some h0).
      { rewrite (var_set _ _ _ _ _ V). destruct (Nat.eqb v w); eauto. }
      destruct W1 as [h0 W1]. eapply inv_set; eauto.
      + apply (handle_ok_bufs s); auto. eapply inv_vars; eauto.
      + intros u hu b Du U R Q. rewrite (var_set _ _ _ _ _ V) in U. destruct (Nat.eqb v u).
        * injection U as <-. eapply inv_const; [exact I|exact W|exact V|eauto|eauto].
        * eapply inv_const; [exact I|exact U|exact V|eauto|eauto].
    - unfold slice in H. destruct (h_void h) eqn:Vd; [injection H as <- <-; auto|].
      destruct (Nat.leb_spec (off + n) (h_count h)) as [L|L]; [|injection H as <- <-; auto].
      injection H as <- <-.
      match goal with |- inv (St (bufs s) (vars s ++ [Some ?x])) => apply (bind_like s v h x); auto end.
      + destruct (inv_vars _ I _ _ V) as [A B C]. split; simpl; auto.
        * destruct (h_ptr h) as [[b o]|] eqn:P; [discriminate|]. intros _. rewrite (A eq_refl) in L. lia.
        * intros b o P'. destruct (h_ptr h) as [[b1 o1]|] eqn:P; [|discriminate]. injection P' as <- <-.
          destruct (B b1 o1 eq_refl) as (t & l & N & K & T). exists t, l. split; auto. split; [lia|].
          destruct T as [T|(T & _)]; [auto|congruence].
      + intros b [o Q]. simpl in Q. destruct (h_ptr h) as [[b1 o1]|] eqn:P; [|discriminate].
        exists o1. congruence.
    - eapply inv_write; eauto.
    - eapply inv_resize; eauto.
    - eapply inv_resize; eauto.
    - eapply inv_freeze; eauto.
    - eapply inv_thaw; eauto.
    - injection H as <- <-. apply (bind_like s v h (Hd (h_const h) true (h_type h) (h_ptr h) (h_count h))); auto.
      destruct (inv_vars _ I _ _ V) as [A B C]. split; simpl; auto; [|discriminate].
      intros b o P. destruct (B b o P) as (t & l & N & L & T). exists t, l. split; auto. split; auto.
      destruct T as [T|(_ & T)]; auto.
    - eapply inv_cast_to; eauto.
    - unfold convert_to in H. destruct (elem_type t) eqn:T; simpl negb in H; cbv iota in H; [|injection H as <- <-; auto].
      destruct (h_void h && (h_type h =? t)%Z); [eapply inv_cast_to; eauto|].
      destruct (convert_arr fp (h_type h) t (elems s h)) as [l|x] eqn:E.
      + pose proof (inv_vars _ I _ _ V) as O.
        apply convert_fits in E as [F L]; [|apply elems_fit; auto]. rewrite elems_len in L by auto.
        injection H as <- <-. apply (bind_fresh s t l (h_const h) false (h_count h)); auto. lia.
      + destruct x; injection H as <- <-; auto.
    - unfold at_ in H. destruct (h_void h); [injection H as <- <-; auto|].
      destruct (Nat.ltb (h_count h) i); [injection H as <- <-; auto|].
      destruct (h_ptr h) as [[b o]|]; [destruct (nth_error (memory s b) (o + i))|]; injection H as <- <-; auto.
  Qed.
  Lemma inv_runs s l s' : inv s -> runs fp s l s' -> inv s'.
  Proof. intros I R. induction R; auto. apply IHR. eapply inv_step; eauto. Qed.
  Lemma reached_inv s : reached fp s -> inv s.
  Proof. intros [l R]. eapply inv_runs; [apply inv_start|exact R]. Qed.
End Step.
