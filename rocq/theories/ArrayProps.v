(** C93: shared_array<>.  [fp] is the floating point of the machine, used by
    convertTo() only. *)

From Coq Require Import ZArith Bool String List Lia.
From Verif Require Import Base TypeModel CopyModel CopyProps ArrayModel ArraySpec ArrayProofs ArrayProofs2 ArrayProofs3 ArrayProofs4.
Import ListNotations.

(** A constant array never changes: whatever a program does with its other
    variables, copies of this one among them, as long as it does not make the
    variable itself refer to something else. *)
Theorem C93_frozen : forall fp s v l s', reached fp s -> is_const s v -> runs fp s l s' -> Forall (leaves v) l ->
  is_const s' v /\ shown s' v = shown s v.
Proof.
  intros fp s v l s' I (h & V & C) R F. apply reached_inv in I.
  destruct (runs_frozen fp s l s' v h I R F V C) as [A B].
  split; [exists h; auto|]. unfold shown. rewrite A, V. simpl. congruence.
Qed.
(** An array to which no other variable refers is changed by nobody else. *)
Theorem C93_private : forall fp s v l s', reached fp s -> live s v -> alone s v -> runs fp s l s' -> Forall (ignores v) l ->
  shown s' v = shown s v /\ alone s' v.
Proof.
  intros fp s v l s' I L A R F. apply reached_inv in I. apply live_var in L as [h V].
  apply (unique_alone _ _ _ V) in A.
  destruct (runs_private fp s l s' v h I R F V A) as (B & C & D). split.
  - unfold shown. rewrite B, V. simpl. congruence.
  - apply (unique_alone _ _ _ B). exact D.
Qed.
(** Elements are only ever seen at the type with which they were made. *)
Theorem C93_typed : forall fp s v c vd t l, reached fp s -> typed s v c vd t -> shown s v = Some l -> l <> [] ->
  elem_type t = true /\ Forall (fun e => fits t e = true) l.
Proof.
  intros fp s v c vd t l I (h & V & C & D & T) S N. apply reached_inv in I. subst t.
  rewrite (shown_is _ _ _ V) in S. injection S as <-. pose proof (inv_vars _ I _ _ V) as O.
  pose proof (elems_fit _ _ I O) as F. split; [|apply Forall_forall; apply forallb_forall; exact F].
  pose proof (elems_len _ _ O) as L. unfold elems in N. destruct (h_ptr h) as [[b o]|] eqn:P; [|congruence].
  destruct (ho_buf _ _ O b o P) as (t & m & M & _ & [E|(_ & _ & E)]).
  - rewrite E. apply (inv_bufs _ I _ _ _ M).
  - exfalso. apply N. rewrite E. reflexivity.
Qed.

(** freeze(): of the only reference, gives a constant array with the elements
    and leaves the variable empty; otherwise throws and changes nothing. *)
Theorem C93_freeze : forall fp s v c vd t, reached fp s -> typed s v c vd t ->
  (alone s v -> exists s' w, step fp s (Freeze v) = (s', Made w) /\ ~ live s w /\ typed s' w true vd t
     /\ shown s' w = shown s v /\ shown s' v = Some [] /\ others_kept s s' v /\ alone s' w)
  /\ (~ alone s v -> step fp s (Freeze v) = (s, Thrown XLogic)).
Proof.
  intros fp s v c vd t I (h & V & C & D & T). apply reached_inv in I. subst. split.
  - apply freeze_yes; auto.
  - eapply freeze_no; eauto.
Qed.
(** thaw(): gives an array of one's own which may be changed, with the elements,
    whoever else refers to them; the variable is left empty.  Without the type
    (void) not for elements which are Values: see the next theorem. *)
Theorem C93_thaw : forall fp s v c vd t, reached fp s -> typed s v c vd t ->
  alone s v \/ vd = false \/ (t <> at_Value /\ t <> at_Null) -> exists s' w,
  step fp s (Thaw v) = (s', Made w) /\ ~ live s w /\ typed s' w false vd t
  /\ shown s' w = shown s v /\ shown s' v = Some [] /\ others_kept s s' v /\ alone s' w.
Proof.
  intros fp s v c vd t I (h & V & C & D & T) A. apply reached_inv in I. subst. apply thaw_yes; auto.
Qed.
(** thaw() is to give a copy when there are other references.  Of an array of
    Value held as shared_array<const void> it throws NoConvert: convertArr() has no
    copy of Value. *)
Theorem C93_thaw_refuted : forall fp, exists s v, reached fp s /\ typed s v true true at_Value /\ shown s v = Some [EVal 1]
  /\ step fp s (Thaw v) = (s, Thrown (XConv RNoConvert)).
Proof.
  intros fp. exists (St [(at_Value, [EVal 1])] [Some (Hd true false at_Value (Some (0, 0)) 1); Some (Hd true true at_Value (Some (0, 0)) 1)]%nat), 1%nat.
  split; [exists [Build true at_Value [EVal 1]; CastVoid 0]|].
  - eapply runs_cons; [reflexivity|discriminate|]. eapply runs_cons; [reflexivity|discriminate|]. apply runs_nil.
  - split; [eexists; split; [reflexivity|auto]|]. split; reflexivity.
Qed.

(** castTo<void>(): another reference to the same elements, of the same
    constness, which remembers their type *)
Theorem C93_erase : forall fp s v c vd t, reached fp s -> typed s v c vd t -> exists s' w,
  step fp s (CastVoid v) = (s', Made w) /\ ~ live s w /\ typed s' w c true t /\ shown s' w = shown s v
  /\ (forall u, live s u -> shown s' u = shown s u) /\ (shown s v <> Some [] -> shares s' v w).
Proof.
  intros fp s v c vd t I (h & V & C & D & T). subst.
  destruct (bound s (Hd (h_const h) true (h_type h) (h_ptr h) (h_count h))) as (B & W & K).
  eexists _, _. split; [simpl; rewrite V; reflexivity|].
  split; [exact B|]. split; [eexists; split; [exact W|auto]|]. split.
  - refine (eq_trans (shown_is _ _ _ W) _). rewrite (shown_is _ _ _ V). reflexivity.
  - split; [intros u L; apply (K u L)|]. intros N. rewrite (shown_is _ _ _ V) in N. unfold elems in N.
    destruct (h_ptr h) as [[b o]|] eqn:P; [|congruence].
    exists h, (Hd (h_const h) true (h_type h) (Some (b, o)) (h_count h)), b, o, o.
    repeat split; auto. rewrite <- V. apply K. unfold live. congruence.
Qed.
(** castTo<E>() of a void array: another reference to the elements if they are
    E; if they are not, and there are any, throws and changes nothing. *)
Theorem C93_cast : forall fp s v c t t', reached fp s -> typed s v c true t -> elem_type t' = true ->
  (t = t' -> exists s' w, step fp s (CastTo t' v) = (s', Made w) /\ ~ live s w /\ typed s' w c false t'
     /\ shown s' w = shown s v /\ (forall u, live s u -> shown s' u = shown s u) /\ (shown s v <> Some [] -> shares s' v w))
  /\ (t <> t' -> shown s v <> Some [] -> step fp s (CastTo t' v) = (s, Thrown XLogic)).
Proof.
  intros fp s v c t t' I (h & V & C & D & T) E. subst. split.
  - intros <-.
    destruct (bound s (Hd (h_const h) false (h_type h) (h_ptr h) (h_count h))) as (B & W & K).
    eexists _, _. split.
    { simpl. rewrite V. unfold cast_to. rewrite E, D, Z.eqb_refl. simpl. rewrite andb_false_r. reflexivity. }
    split; [exact B|]. split; [eexists; split; [exact W|auto]|]. split.
    + refine (eq_trans (shown_is _ _ _ W) _). rewrite (shown_is _ _ _ V). reflexivity.
    + split; [intros u L; apply (K u L)|]. intros N. rewrite (shown_is _ _ _ V) in N. unfold elems in N.
      destruct (h_ptr h) as [[b o]|] eqn:P; [|congruence].
      exists h, (Hd (h_const h) false (h_type h) (Some (b, o)) (h_count h)), b, o, o.
      repeat split; auto. rewrite <- V. apply K. unfold live. congruence.
  - intros N S. simpl. rewrite V. unfold cast_to. rewrite E, D. simpl.
    rewrite (shown_is _ _ _ V) in S. unfold elems in S. destruct (h_ptr h) as [[b o]|] eqn:P; [|congruence].
    apply Z.eqb_neq in N. rewrite N. reflexivity.
Qed.
(** The documentation of shared_array says that castTo<void>() leaves the array
    empty.  It does not, and for that reason the result can not be frozen. *)
Theorem C93_consume_refuted : forall fp, exists s v s' w, reached fp s /\ typed s v false false 0x2e /\ shown s v = Some [EPod 1; EPod 2; EPod 3]
  /\ step fp s (CastVoid v) = (s', Made w) /\ shown s' v = Some [EPod 1; EPod 2; EPod 3]
  /\ step fp s' (Freeze w) = (s', Thrown XLogic).
Proof.
  intros fp.
  exists (St [(0x2e%Z, [EPod 1; EPod 2; EPod 3])] [Some (Hd false false 0x2e (Some (0, 0)) 3)])%nat, 0%nat.
  eexists _, _. split; [exists [Build false 0x2e [EPod 1; EPod 2; EPod 3]]|].
  - eapply runs_cons; [reflexivity|discriminate|]. apply runs_nil.
  - split; [eexists; split; [reflexivity|auto]|]. repeat split.
Qed.
(** convertTo<E>(): element by element, of the same constness; a void array
    whose elements are E is only another reference.  Nothing else changes. *)
Theorem C93_convert : forall fp s v c vd t t' l s' w, reached fp s -> typed s v c vd t -> shown s v = Some l ->
  step fp s (ConvertTo t' v) = (s', Made w) ->
  ~ live s w /\ typed s' w c false t' /\ (forall u, live s u -> shown s' u = shown s u)
  /\ (t = t' -> shown s' w = Some l)
  /\ (t <> t' -> alone s' w /\ exists l', shown s' w = Some l' /\ Forall2 (fun x y => conv_elem fp t t' x = CV y) l l').
Proof.
  intros fp s v c vd t t' l s' w I (h & V & C & D & T) S H. apply reached_inv in I. subst.
  rewrite (shown_is _ _ _ V) in S. injection S as <-. pose proof (inv_vars _ I _ _ V) as O.
  simpl in H. rewrite V in H. unfold convert_to in H.
  destruct (elem_type t') eqn:E; simpl in H; [|discriminate].
  destruct (h_void h && (h_type h =? t')%Z) eqn:G.
  - apply andb_prop in G as [G1 G2]. apply Z.eqb_eq in G2.
    unfold cast_to in H. rewrite E, G1, G2, Z.eqb_refl in H. simpl in H. rewrite andb_false_r in H.
    destruct (bound s (Hd (h_const h) false t' (h_ptr h) (h_count h))) as (B & W & K).
    injection H as <- <-. split; [exact B|]. split; [eexists; split; [exact W|auto]|].
    split; [intros u L; apply (K u L)|]. split; [|congruence]. intros _. refine (eq_trans (shown_is _ _ _ W) _). reflexivity.
  - destruct (convert_arr fp (h_type h) t' (elems s h)) as [l|x] eqn:X; [|destruct x; discriminate].
    destruct (bound_fresh s t' l (Hd (h_const h) false t' (Some (next s, 0%nat)) (h_count h)) I) as (B & W & K).
    assert (Sh : shown (fst (bind (alloc s t' l) (Hd (h_const h) false t' (Some (next s, 0%nat)) (h_count h)))) (length (vars s)) = Some l).
    { refine (eq_trans (shown_is _ _ _ W) _). f_equal.
      transitivity (elems (alloc s t' l) (Hd (h_const h) false t' (Some (next s, 0%nat)) (h_count h))); [reflexivity|].
      rewrite elems_fresh. apply firstn_all2. apply convert_fits in X as [_ L]; [|apply elems_fit; auto].
      rewrite elems_len in L by auto. lia. }
    injection H as <- <-. split; [exact B|]. split; [eexists; split; [exact W|auto]|].
    split; [intros u L; apply (K u L)|]. split.
    + intros Et. transitivity (Some l); [exact Sh|]. f_equal. rewrite Et in X.
      apply map_cv_F2 in X. clear - X. induction X as [|x y a b E _ IH]; auto. f_equal; auto.
      unfold conv_elem in E. rewrite Z.eqb_refl in E.
      destruct (negb (pod_type t' || (t' =? at_String)%Z) || negb (pod_type t' || (t' =? at_String)%Z)); congruence.
    + intros _. split.
      * intros u N (h1 & h2 & b & o & p & W1 & U2 & P1 & P2).
        change (var (fst (bind (alloc s t' l) (Hd (h_const h) false t' (Some (next s, 0%nat)) (h_count h)))) (length (vars s)) = Some h1) in W1.
        change (var (fst (bind (alloc s t' l) (Hd (h_const h) false t' (Some (next s, 0%nat)) (h_count h)))) u = Some h2) in U2.
        rewrite W in W1. injection W1 as <-. simpl in P1. injection P1 as <- <-.
        rewrite var_bind in U2. change (vars (alloc s t' l)) with (vars s) in U2.
        destruct (Nat.eqb_spec (length (vars s)) u) as [Q|Q]; [congruence|]. rewrite var_alloc in U2.
        eapply (not_next s h2); [eapply inv_vars; eauto|exists p; auto].
      * exists l. split; [exact Sh|]. apply map_cv_F2. exact X.
Qed.

(** resize(): the first elements stay, the array is one's own, others keep
    their elements.  make_unique() likewise, keeping all. *)
Theorem C93_resize : forall fp s v t l n, reached fp s -> typed s v false false t -> shown s v = Some l -> exists s' l',
  step fp s (Resize v n) = (s', Done) /\ typed s' v false false t /\ shown s' v = Some l' /\ length l' = n
  /\ (forall i, i < n -> i < length l -> nth_error l' i = nth_error l i)%nat /\ others_kept s s' v /\ alone s' v.
Proof.
  intros fp s v t l n I (h & V & C & D & T) S. apply reached_inv in I. subst.
  rewrite (shown_is _ _ _ V) in S. injection S as <-. pose proof (inv_vars _ I _ _ V) as O.
  simpl. rewrite V. unfold resize. rewrite C, D. simpl.
  destruct (negb (unique s h) || negb (Nat.eqb n (h_count h))) eqn:G.
  - set (m := firstn n (elems s h) ++ repeat (fresh (h_type h)) (n - length (firstn n (elems s h)))).
    set (s1 := alloc s (h_type h) m). set (h' := Hd false false (h_type h) (Some (next s, 0%nat)) n).
    assert (V1 : var s1 v = Some h) by exact V.
    assert (Lm : length m = n). { unfold m. rewrite app_length, repeat_length, firstn_length. lia. }
    assert (V2 : var (set s1 v (Some h')) v = Some h'). { rewrite (var_set _ _ _ _ _ V1), Nat.eqb_refl. reflexivity. }
    exists (set s1 v (Some h')), m. split; [reflexivity|]. split; [exists h'; auto|]. split.
    { rewrite (shown_is _ _ _ V2). f_equal. transitivity (elems s1 h'); [reflexivity|]. unfold s1, h'. rewrite elems_fresh.
      apply firstn_all2. lia. }
    split; [exact Lm|]. split.
    { intros i A B. unfold m. rewrite nth_error_app1 by (rewrite firstn_length; lia).
      clear - A. revert n A. generalize (elems s h) as l. revert i. intros i l. revert i.
      induction l as [|x l IH]; intros [|i] [|n] A; simpl; auto; try lia. apply IH. lia. }
    split.
    { intros u N L. apply live_var in L as [hu U].
      assert (U2 : var (set s1 v (Some h')) u = Some hu). { rewrite (var_set _ _ _ _ _ V1). destruct (Nat.eqb_spec v u); [congruence|exact U]. }
      split; [|congruence]. rewrite (shown_is _ _ _ U), (shown_is _ _ _ U2). f_equal.
      transitivity (elems s1 hu); [reflexivity|]. apply elems_alloc. eapply inv_vars; eauto. }
    intros u N (h1 & h2 & b & o & p & W1 & U2 & P1 & P2). rewrite V2 in W1. injection W1 as <-. simpl in P1. injection P1 as <- <-.
    rewrite (var_set _ _ _ _ _ V1) in U2. destruct (Nat.eqb_spec v u); [congruence|].
    eapply (not_next s h2); [eapply inv_vars; eauto|exists p; auto].
  - apply orb_false_iff in G as [G1 G2]. apply negb_false_iff in G1. apply negb_false_iff in G2. apply Nat.eqb_eq in G2.
    exists s, (elems s h). split; [reflexivity|]. split; [exists h; auto|]. split; [apply shown_is; auto|].
    split; [rewrite elems_len; auto|]. split; [auto|]. split; [intros u N L; auto|].
    apply (unique_alone _ _ _ V). exact G1.
Qed.
Theorem C93_make_unique : forall fp s v t, reached fp s -> typed s v false false t -> exists s',
  step fp s (MakeUnique v) = (s', Done) /\ typed s' v false false t /\ shown s' v = shown s v /\ others_kept s s' v /\ alone s' v.
Proof.
  intros fp s v t I T. destruct T as (h & V & T'). pose proof (reached_inv _ _ I) as J. pose proof (inv_vars _ J _ _ V) as O.
  destruct (C93_resize fp s v t (elems s h) (h_count h) I (ex_intro _ h (conj V T')) (shown_is _ _ _ V))
    as (s' & l' & A & B & C & L & D & E & F).
  exists s'. split; [simpl in A |- *; rewrite V in *; exact A|]. split; auto. split; auto.
  rewrite C, (shown_is _ _ _ V). f_equal. pose proof (elems_len _ _ O) as K.
  apply nth_ext with (d := EJunk) (d' := EJunk); [lia|]. intros i Li.
  apply nth_error_nth with (d := EJunk) (x := nth i (elems s h) EJunk). rewrite D by lia.
  apply nth_error_nth'. lia.
Qed.

(** An element written is seen there, and no other element of the array has
    changed, nor any of an array which does not share the memory. *)
Theorem C93_write : forall fp s v t l i e, reached fp s -> typed s v false false t -> shown s v = Some l ->
  fits t e = true -> (i < length l)%nat -> exists s' l',
  step fp s (Write v i e) = (s', Done) /\ shown s' v = Some l' /\ length l' = length l /\ nth_error l' i = Some e
  /\ (forall j, j <> i -> nth_error l' j = nth_error l j)
  /\ (forall u, ~ shares s v u -> shown s' u = shown s u)
  /\ (forall u, var s u = var s v -> shown s' u = Some l').
Proof.
  intros fp s v t l i e I (h & V & C & D & T) S F L. apply reached_inv in I. subst.
  rewrite (shown_is _ _ _ V) in S. injection S as <-. pose proof (inv_vars _ I _ _ V) as O. rewrite elems_len in L by auto.
  simpl. rewrite V. unfold write. rewrite C, D, F. simpl.
  destruct (h_ptr h) as [[b o]|] eqn:P; [|rewrite (ho_null _ _ O P) in L; lia].
  apply Nat.ltb_lt in L as L'. rewrite L'.
  destruct (ho_buf _ _ O b o P) as (t & m & N & K & Q).
  unfold memory. rewrite (nth_error_nth _ _ _ N). simpl.
  set (s' := St (upd (bufs s) b (t, upd m (o + i) e)) (vars s)).
  assert (NB : (b < length (bufs s))%nat) by (apply nth_error_Some; congruence).
  assert (E : elems s' h = firstn (h_count h) (skipn o (upd m (o + i) e))).
  { unfold elems, memory, s'. rewrite P. simpl.
    rewrite (nth_error_nth _ _ (0%Z, []) (x := (t, upd m (o + i) e))); auto.
    rewrite upd_nth, Nat.eqb_refl. apply Nat.ltb_lt in NB. rewrite NB. reflexivity. }
  assert (E0 : elems s h = firstn (h_count h) (skipn o m)).
  { unfold elems, memory. rewrite P, (nth_error_nth _ _ _ N). reflexivity. }
  assert (nf : forall (x : list elem) n j, nth_error (firstn n x) j = if Nat.ltb j n then nth_error x j else None).
  { clear. intros x n. revert x. induction n as [|n IH]; intros x j; simpl.
    - destruct (Nat.ltb_spec j 0); [lia|]. destruct j; reflexivity.
    - destruct x as [|a x]; destruct j as [|j]; simpl; auto.
      + destruct (Nat.ltb (S j) (S n)); auto.
      + rewrite IH. reflexivity. }
  assert (ns : forall (x : list elem) n j, nth_error (skipn n x) j = nth_error x (n + j)).
  { clear. intros x n. revert x. induction n as [|n IH]; intros x j; simpl; auto. destruct x; auto. destruct j; reflexivity. }
  exists s', (elems s' h).
  split; [reflexivity|]. split; [apply shown_is; exact V|].
  split. { rewrite E, E0, !firstn_length, !skipn_length, upd_len. reflexivity. }
  split. { rewrite E, nf, L', ns, upd_nth, Nat.eqb_refl. destruct (Nat.ltb_spec (o + i) (length m)); [reflexivity|lia]. }
  split. { intros j J. rewrite E, E0, !nf, !ns, upd_nth. destruct (Nat.eqb_spec (o + i) (o + j)); [lia|reflexivity]. }
  split.
  - intros u W. unfold shown. change (var s' u) with (var s u). destruct (var s u) as [hu|] eqn:U; auto. simpl. f_equal.
    apply elems_mem. intros b' [p R]. unfold memory, s'; simpl.
    destruct (Nat.eq_dec b b') as [<-|J]. { exfalso. apply W. exists h, hu, b, o, p. auto. }
    destruct (ho_buf _ _ (inv_vars _ I _ _ U) b' p R) as (t2 & m2 & N2 & _).
    rewrite (nth_error_nth _ _ _ N2). erewrite nth_error_nth; [reflexivity|]. rewrite upd_nth.
    destruct (Nat.eqb_spec b b'); [congruence|exact N2].
  - intros u U. unfold shown. change (var s' u) with (var s u). rewrite U. reflexivity.
Qed.

(** Copies refer to the same elements; slices to a part of them; moving leaves
    the source empty. *)
Theorem C93_copy : forall fp s v c vd t, reached fp s -> typed s v c vd t -> exists s' w,
  step fp s (Copy v) = (s', Made w) /\ ~ live s w /\ typed s' w c vd t /\ shown s' w = shown s v
  /\ (forall u, live s u -> shown s' u = shown s u) /\ (shown s v <> Some [] -> shares s' v w).
Proof.
  intros fp s v c vd t I (h & V & C & D & T). subst.
  destruct (bound s h) as (B & W & K).
  eexists _, _. split; [simpl; rewrite V; reflexivity|].
  split; [exact B|]. split; [eexists; split; [exact W|auto]|]. split.
  - refine (eq_trans (shown_is _ _ _ W) _). rewrite (shown_is _ _ _ V). reflexivity.
  - split; [intros u L; apply (K u L)|]. intros N. rewrite (shown_is _ _ _ V) in N. unfold elems in N.
    destruct (h_ptr h) as [[b o]|] eqn:P; [|congruence]. exists h, h, b, o, o.
    repeat split; auto. refine (eq_trans (proj1 (K v _)) V). unfold live. congruence.
Qed.
Theorem C93_slice : forall fp s v c t l off n, reached fp s -> typed s v c false t -> shown s v = Some l -> (off + n <= length l)%nat ->
  exists s' w, step fp s (Slice v off n) = (s', Made w) /\ ~ live s w /\ typed s' w c false t
  /\ shown s' w = Some (firstn n (skipn off l)) /\ (forall u, live s u -> shown s' u = shown s u).
Proof.
  intros fp s v c t l off n I (h & V & C & D & T) S L. apply reached_inv in I. subst.
  rewrite (shown_is _ _ _ V) in S. injection S as <-. pose proof (inv_vars _ I _ _ V) as O. rewrite elems_len in L by auto.
  set (h' := Hd (h_const h) false (h_type h) (match h_ptr h with Some (b, o) => Some (b, (o + off)%nat) | None => None end) n).
  destruct (bound s h') as (B & W & K).
  eexists _, _. split.
  { simpl. rewrite V. unfold slice. rewrite D. apply Nat.leb_le in L. rewrite L. reflexivity. }
  split; [exact B|]. split; [eexists; split; [exact W|auto]|]. split; [|intros u U; apply (K u U)].
  refine (eq_trans (shown_is _ _ _ W) _). f_equal. unfold elems, h'; simpl. destruct (h_ptr h) as [[b o]|] eqn:P; simpl.
  - rewrite skipn_firstn_comm, firstn_firstn, Nat.min_l by lia. f_equal.
    match goal with |- skipn _ (memory ?x b) = _ => change (memory x b) with (memory s b) end.
    generalize (memory s b) as m. clear. induction o as [|o IH]; intros m; simpl; auto. destruct m; auto. destruct off; auto.
  - destruct off, n; reflexivity.
Qed.
Theorem C93_move : forall fp s v c vd t, reached fp s -> typed s v c vd t -> exists s' w,
  step fp s (Move v) = (s', Made w) /\ ~ live s w /\ typed s' w c vd t /\ shown s' w = shown s v /\ shown s' v = Some []
  /\ others_kept s s' v /\ (alone s v -> alone s' w).
Proof.
  intros fp s v c vd t I (h & V & C & D & T). apply reached_inv in I. subst.
  assert (N : forall u, u <> v -> live s u -> var (fst (bind (set s v (Some (emptied h))) h)) u = var s u).
  { intros u Du L. rewrite var_bind, vars_set_len.
    destruct (Nat.eqb_spec (length (vars s)) u) as [<-|]. { exfalso. eapply new_dead; eauto. }
    rewrite (var_set _ _ _ _ _ V). destruct (Nat.eqb_spec v u); congruence. }
  assert (W : var (fst (bind (set s v (Some (emptied h))) h)) (length (vars s)) = Some h).
  { rewrite var_bind, vars_set_len, Nat.eqb_refl. reflexivity. }
  eexists _, _. split; [simpl; rewrite V; unfold move, bind; rewrite vars_set_len; reflexivity|].
  split; [apply new_dead|]. split; [exists h; split; [exact W|auto]|].
  split. { refine (eq_trans (shown_is _ _ _ W) _). rewrite (shown_is _ _ _ V). reflexivity. }
  split.
  { change (shown (fst (bind (set s v (Some (emptied h))) h)) v = Some []).
    unfold shown. rewrite var_bind, vars_set_len.
    destruct (Nat.eqb_spec (length (vars s)) v) as [E|]. { exfalso. apply var_bound in V. lia. }
    rewrite (var_set _ _ _ _ _ V), Nat.eqb_refl. reflexivity. }
  split.
  { intros u Du L. pose proof (N u Du L) as E. split; [|exact E].
    change (shown (fst (bind (set s v (Some (emptied h))) h)) u = shown s u).
    unfold shown. rewrite E. destruct (var s u); auto. }
  intros A. apply (unique_alone _ _ _ V) in A.
  destruct (take_over s v h h I V A eq_refl eq_refl) as (_ & _ & _ & _ & _ & G). exact G.
Qed.
(** Assignment: the target now shows what the source does, and nobody else changes. *)
Theorem C93_assign : forall fp s d v c vd t t', reached fp s -> typed s d c vd t' -> typed s v c vd t -> (vd = false -> t = t') ->
  exists s', step fp s (Assign d v) = (s', Done) /\ typed s' d c vd t /\ shown s' d = shown s v /\ others_kept s s' d.
Proof.
  intros fp s d v c vd t t' I (hd & Vd & Cd & Dd & Td) (h & V & C & D & T) E.
  assert (S : same_type hd h = true).
  { unfold same_type. rewrite Cd, C, Dd, D, !eqb_reflx. simpl. rewrite Td, T. destruct vd; auto. rewrite E by auto. apply Z.eqb_refl. }
  assert (V2 : var (set s d (Some h)) d = Some h). { rewrite (var_set _ _ _ _ _ Vd), Nat.eqb_refl. reflexivity. }
  exists (set s d (Some h)). split; [simpl; rewrite Vd, V; unfold assign; rewrite S; reflexivity|].
  split; [exists h; auto|]. split; [rewrite (shown_is _ _ _ V2), (shown_is _ _ _ V); reflexivity|].
  intros u N L. apply live_var in L as [hu U].
  assert (U2 : var (set s d (Some h)) u = Some hu). { rewrite (var_set _ _ _ _ _ Vd). destruct (Nat.eqb_spec d u); congruence. }
  split; [|congruence]. rewrite (shown_is _ _ _ U), (shown_is _ _ _ U2). reflexivity.
Qed.

(** at(): the element, or std::out_of_range.  The index size() is left out: see
    the next theorem. *)
Theorem C93_at : forall fp s v c t l i, reached fp s -> typed s v c false t -> shown s v = Some l ->
  (i < length l -> exists e, nth_error l i = Some e /\ step fp s (At v i) = (s, Elem e))%nat
  /\ (length l < i -> step fp s (At v i) = (s, Thrown XRange))%nat.
Proof.
  intros fp s v c t l i I (h & V & C & D & T) S. apply reached_inv in I. subst.
  rewrite (shown_is _ _ _ V) in S. injection S as <-. pose proof (inv_vars _ I _ _ V) as O. rewrite elems_len by auto.
  simpl. rewrite V. unfold at_. rewrite D. split; intros L.
  - destruct (Nat.ltb_spec (h_count h) i); [lia|]. unfold elems. destruct (h_ptr h) as [[b o]|] eqn:P.
    + destruct (ho_buf _ _ O b o P) as (t & m & N & K & _). unfold memory. rewrite (nth_error_nth _ _ _ N). simpl.
      destruct (nth_error m (o + i)) as [e|] eqn:E; [|apply nth_error_None in E; lia].
      exists e. split; auto. rewrite <- E. clear - L.
      assert (G : forall (x : list elem) k j, (j < k)%nat -> nth_error (firstn k x) j = nth_error x j).
      { clear. intros x k. revert x. induction k as [|k IH]; intros [|a x] [|j] L; simpl; auto; try lia. apply IH. lia. }
      rewrite G by auto. clear. revert m. induction o as [|o IH]; intros m; simpl; auto. destruct m; auto. destruct i; reflexivity.
    + rewrite (ho_null _ _ O P) in L. lia.
  - apply Nat.ltb_lt in L. rewrite L. reflexivity.
Qed.
(** at() is to throw std::out_of_range for every index not less than size().
    It reads beyond the array for the index size() itself: undefined behaviour,
    or the element behind a part of an array. *)
Theorem C93_at_refuted : forall fp,
  (exists s v l, reached fp s /\ shown s v = Some l /\ snd (step fp s (At v (length l))) = Undefined)
  /\ (exists s v l e, reached fp s /\ shown s v = Some l /\ snd (step fp s (At v (length l))) = Elem e).
Proof.
  intros fp. split.
  - exists (St [(0x2e%Z, [EPod 1])] [Some (Hd true false 0x2e (Some (0, 0)) 1)])%nat, 0%nat, [EPod 1].
    split; [exists [Build true 0x2e [EPod 1]]|split; reflexivity].
    eapply runs_cons; [reflexivity|discriminate|]. apply runs_nil.
  - exists (St [(0x2e%Z, [EPod 1; EPod 2])] [Some (Hd true false 0x2e (Some (0, 0)) 2); Some (Hd true false 0x2e (Some (0, 0)) 1)])%nat, 1%nat, [EPod 1], (EPod 2).
    split; [exists [Build true 0x2e [EPod 1; EPod 2]; Slice 0 0 1]|split; reflexivity].
    eapply runs_cons; [reflexivity|discriminate|]. eapply runs_cons; [reflexivity|discriminate|]. apply runs_nil.
Qed.
(** Nothing else is undefined: only at(size()), an index or a part outside of
    the array, and the conversion of an element for which C++ does not define it. *)
Theorem C93_defined : forall fp s o, reached fp s -> snd (step fp s o) = Undefined ->
  exists v l, shown s v = Some l /\
  match o with
  | At w i => w = v /\ i = length l
  | Write w i _ => w = v /\ (length l <= i)%nat
  | Slice w off n => w = v /\ (length l < off + n)%nat
  | ConvertTo t w => w = v /\ exists e h, In e l /\ var s v = Some h /\ conv_elem fp (h_type h) t e = CFail RUB
  | _ => False
  end.
Proof.
  intros fp s o I H. apply reached_inv in I.
  assert (nb : forall s1 h, snd (bind s1 h) = Undefined -> False) by (intros s1 h X; discriminate).
  destruct o; simpl in H;
    try (destruct (var s d) as [hd|] eqn:D; [|discriminate]);
    try (destruct (var s v) as [h|] eqn:V; [|discriminate]);
    try (pose proof (inv_vars _ I _ _ V) as O);
    unfold build, empty, alloc_array, move, assign, move_assign, swap, slice, write, resize, freeze, thaw, cast_void, convert_to, cast_to, at_ in H;
    repeat match type of H with
           | context [match ?x with _ => _ end] => destruct x eqn:?; try discriminate
           end;
    try discriminate; try (simpl in H; discriminate);
    exists v, (elems s h); (split; [apply shown_is; exact V|]); rewrite ?elems_len by exact O; split; auto.
  - apply Nat.leb_gt in Heqb0. exact Heqb0.
  - apply Nat.ltb_ge in Heqb0. exact Heqb0.
  - rewrite (ho_null _ _ O Heqo). lia.
  - subst r. rename Heqc into X. unfold convert_arr in X. clear - X V.
    assert (G : exists e, In e (elems s h) /\ conv_elem fp (h_type h) t e = CFail RUB).
    { revert X. generalize (elems s h) as l. induction l as [|e l IH]; simpl; intros X; [discriminate|].
      destruct (conv_elem fp (h_type h) t e) as [y|x] eqn:E; [|exists e; split; [auto|congruence]].
      destruct (map_cv (conv_elem fp (h_type h) t) l) eqn:M; [discriminate|].
      destruct IH as (e' & A & B); [congruence|]. exists e'. auto. }
    destruct G as (e & A & B). exists e, h. auto.
  - apply Nat.ltb_ge in Heqb0. destruct (ho_buf _ _ O _ _ Heqo) as (t & m & N & K & _).
    unfold memory in Heqo0. rewrite (nth_error_nth _ _ _ N) in Heqo0. simpl in Heqo0. apply nth_error_None in Heqo0. lia.
  - rewrite (ho_null _ _ O Heqo) in *. apply Nat.ltb_ge in Heqb0. lia.
Qed.

(** An array filled, frozen and shared; thawing one of the two references
    copies, so that writing leaves the other as it was. *)
Example C93_example : exists s s' v w,
  runs no_fpu start [Build false 0x2e [EPod 1; EPod 2; EPod 3]; Freeze 0; Copy 1] s /\ is_const s v /\ live s w /\ ~ alone s v /\ reached no_fpu s
  /\ runs no_fpu s [Thaw w; Write 3 0 (EPod 7)] s' /\ Forall (leaves v) [Thaw w; Write 3 0 (EPod 7)]
  /\ shown s' v = Some [EPod 1; EPod 2; EPod 3] /\ shown s' 3 = Some [EPod 7; EPod 2; EPod 3].
Proof.
  assert (R : exists s, runs no_fpu start [Build false 0x2e [EPod 1; EPod 2; EPod 3]; Freeze 0; Copy 1] s
     /\ s = St [(0x2e%Z, [EPod 1; EPod 2; EPod 3])] [Some (Hd false false 0x2e None 0); Some (Hd true false 0x2e (Some (0, 0)) 3); Some (Hd true false 0x2e (Some (0, 0)) 3)]%nat).
  { eexists. split; [|reflexivity]. eapply runs_cons; [reflexivity|discriminate|].
    eapply runs_cons; [reflexivity|discriminate|]. eapply runs_cons; [reflexivity|discriminate|]. apply runs_nil. }
  destruct R as (s & R & ->).
  eexists _, _, 1%nat, 2%nat. split; [exact R|]. split; [eexists; split; reflexivity|]. split; [discriminate|].
  split. { intros A. apply (A 2%nat); [discriminate|]. eexists _, _, _, _, _. repeat split. }
  split; [eexists; exact R|].
  split. { eapply runs_cons; [reflexivity|discriminate|]. eapply runs_cons; [reflexivity|discriminate|]. apply runs_nil. }
  split. { constructor; [discriminate|]. constructor; [exact Logic.I|constructor]. }
  split; reflexivity.
Qed.

Print Assumptions C93_frozen.
Print Assumptions C93_private.
Print Assumptions C93_typed.
Print Assumptions C93_freeze.
Print Assumptions C93_thaw.
Print Assumptions C93_thaw_refuted.
Print Assumptions C93_erase.
Print Assumptions C93_cast.
Print Assumptions C93_consume_refuted.
Print Assumptions C93_convert.
Print Assumptions C93_resize.
Print Assumptions C93_make_unique.
Print Assumptions C93_write.
Print Assumptions C93_copy.
Print Assumptions C93_slice.
Print Assumptions C93_move.
Print Assumptions C93_assign.
Print Assumptions C93_at.
Print Assumptions C93_at_refuted.
Print Assumptions C93_defined.
