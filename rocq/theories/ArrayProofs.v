(** The invariant of histories of shared_array<> operations. *)

From Coq Require Import ZArith Bool String List Lia.
From Verif Require Import Base CopyModel ArrayModel ArraySpec.
Import ListNotations.

Lemma upd_len {A} (l : list A) i x : length (upd l i x) = length l.
Proof. revert i; induction l as [|y l IH]; intros [|i]; simpl; auto. Qed.
Lemma upd_nth {A} (l : list A) i x j :
  nth_error (upd l i x) j = if Nat.eqb i j then (if Nat.ltb i (length l) then Some x else None) else nth_error l j.
Proof.
  revert i j; induction l as [|y l IH]; intros [|i] [|j]; simpl; auto.
  - destruct (Nat.eqb i j); auto.
  - rewrite IH. destruct (Nat.eqb i j); auto.
Qed.

Lemma var_bound s v h : var s v = Some h -> (v < length (vars s))%nat.
Proof. unfold var. intros H. apply nth_error_Some. destruct (nth_error (vars s) v); congruence. Qed.
Lemma var_set s v o w h : var s v = Some h -> var (set s v o) w = if Nat.eqb v w then o else var s w.
Proof.
  intros H. apply var_bound in H. unfold var, set; simpl. rewrite upd_nth.
  destruct (Nat.eqb v w); auto. apply Nat.ltb_lt in H. rewrite H. destruct o; auto.
Qed.
Lemma var_bind s h w : var (fst (bind s h)) w = if Nat.eqb (length (vars s)) w then Some h else var s w.
Proof.
  unfold var, bind; simpl. destruct (Nat.eqb_spec (length (vars s)) w) as [<-|N].
  - rewrite nth_error_app2, Nat.sub_diag by lia. reflexivity.
  - destruct (Nat.lt_ge_cases w (length (vars s))) as [L|L].
    + rewrite nth_error_app1 by lia. reflexivity.
    + rewrite (proj2 (nth_error_None (vars s) w)) by lia.
      rewrite (proj2 (nth_error_None (vars s ++ [Some h]) w)); auto. rewrite app_length; simpl; lia.
Qed.
Lemma var_new s h : var s (length (vars s)) = Some h -> False.
Proof. intros H. apply var_bound in H. lia. Qed.
Lemma var_alloc s t l v : var (alloc s t l) v = var s v.
Proof. reflexivity. Qed.
Lemma vars_alloc s t l : vars (alloc s t l) = vars s.
Proof. reflexivity. Qed.
Lemma vars_set_len s v o : length (vars (set s v o)) = length (vars s).
Proof. unfold set; simpl. apply upd_len. Qed.

Lemma mem_alloc_old s t l b : (b < next s)%nat -> memory (alloc s t l) b = memory s b.
Proof. unfold memory, alloc, next; simpl. intros H. rewrite app_nth1; auto. Qed.
Lemma mem_alloc_new s t l : memory (alloc s t l) (next s) = l.
Proof. unfold memory, alloc, next; simpl. rewrite app_nth2, Nat.sub_diag by lia. reflexivity. Qed.

(** refers *)
Definition refers (h : handle) (b : nat) : Prop := exists o, h_ptr h = Some (b, o).

Record handle_ok (s : state) (h : handle) : Prop := {
  ho_null : h_ptr h = None -> h_count h = 0%nat;
  ho_buf : forall b o, h_ptr h = Some (b, o) -> exists t l,
      nth_error (bufs s) b = Some (t, l) /\ (o + h_count h <= length l)%nat
      /\ (h_type h = t \/ (h_void h = true /\ h_type h = at_Null /\ h_count h = 0%nat));
  ho_type : h_void h = false -> elem_type (h_type h) = true }.
Record inv (s : state) : Prop := {
  inv_vars : forall v h, var s v = Some h -> handle_ok s h;
  inv_bufs : forall b t l, nth_error (bufs s) b = Some (t, l) -> elem_type t = true /\ forallb (fits t) l = true;
  inv_const : forall v w hv hw b, var s v = Some hv -> var s w = Some hw -> refers hv b -> refers hw b ->
      h_const hv = h_const hw }.

Lemma inv_start : inv start.
Proof.
  split.
  - intros v h H. unfold var, start in H; simpl in H. destruct v; discriminate.
  - intros b t l H. destruct b; discriminate.
  - intros v w hv hw b H. unfold var, start in H; simpl in H. destruct v; discriminate.
Qed.

Lemma handle_ok_bufs s s' h : bufs s' = bufs s -> handle_ok s h -> handle_ok s' h.
Proof. intros E [A B C]. split; auto. rewrite E. exact B. Qed.
Lemma handle_ok_alloc s t l h : handle_ok s h -> handle_ok (alloc s t l) h.
Proof.
  intros [A B C]. split; auto. intros b o P. destruct (B b o P) as (t' & l' & H & R). exists t', l'. split; auto.
  unfold alloc; simpl. rewrite nth_error_app1; auto. apply nth_error_Some. congruence.
Qed.
Lemma refers_bound s h b : handle_ok s h -> refers h b -> (b < next s)%nat.
Proof.
  intros [_ B _] [o P]. destruct (B b o P) as (t & l & H & _). unfold next. apply nth_error_Some. congruence.
Qed.
Lemma handle_ok_emptied s h : handle_ok s h -> handle_ok s (emptied h).
Proof.
  intros [A B C]. split; simpl; auto; [discriminate|]. intros V. rewrite V. auto.
Qed.

Lemma inv_alloc s t l : inv s -> elem_type t = true -> forallb (fits t) l = true -> inv (alloc s t l).
Proof.
  intros [A B C] T F. split.
  - intros v h H. rewrite var_alloc in H. apply handle_ok_alloc; eauto.
  - intros b t' l' H. unfold alloc in H; simpl in H.
    destruct (Nat.lt_ge_cases b (length (bufs s))) as [L|L].
    + rewrite nth_error_app1 in H by lia. eauto.
    + rewrite nth_error_app2 in H by lia. destruct (b - length (bufs s))%nat as [|n]; simpl in H.
      * injection H as <- <-. auto.
      * destruct n; discriminate.
  - intros v w hv hw b H1 H2. rewrite var_alloc in *. eauto.
Qed.
Lemma inv_bind s h : inv s -> handle_ok s h ->
  (forall w hw b, var s w = Some hw -> refers hw b -> refers h b -> h_const hw = h_const h) ->
  inv (fst (bind s h)).
Proof.
  intros [A B C] O K. split.
  - intros v h' H. rewrite var_bind in H. apply (handle_ok_bufs s); auto.
    destruct (Nat.eqb (length (vars s)) v); eauto. injection H as <-. auto.
  - exact B.
  - intros v w hv hw b H1 H2 R1 R2. rewrite var_bind in *.
    destruct (Nat.eqb (length (vars s)) v), (Nat.eqb (length (vars s)) w).
    + congruence.
    + injection H1 as <-. symmetry. eauto.
    + injection H2 as <-. eauto.
    + eauto.
Qed.
Lemma inv_set s v h0 h : inv s -> var s v = Some h0 -> handle_ok s h ->
  (forall w hw b, w <> v -> var s w = Some hw -> refers hw b -> refers h b -> h_const hw = h_const h) ->
  inv (set s v (Some h)).
Proof.
  intros [A B C] V O K. split.
  - intros w h' H. rewrite (var_set _ _ _ _ _ V) in H. apply (handle_ok_bufs s); auto.
    destruct (Nat.eqb v w); eauto. injection H as <-. auto.
  - exact B.
  - intros w1 w2 hv hw b H1 H2 R1 R2. rewrite (var_set _ _ _ _ _ V) in H1. rewrite (var_set _ _ _ _ _ V) in H2.
    destruct (Nat.eqb_spec v w1), (Nat.eqb_spec v w2).
    + congruence.
    + injection H1 as <-. symmetry. eapply K; eauto.
    + injection H2 as <-. eapply K; eauto.
    + eauto.
Qed.
Lemma inv_unset s v h0 : inv s -> var s v = Some h0 -> inv (set s v None).
Proof.
  intros [A B C] V. split.
  - intros w h' H. rewrite (var_set _ _ _ _ _ V) in H. apply (handle_ok_bufs s); auto.
    destruct (Nat.eqb v w); eauto. discriminate.
  - exact B.
  - intros w1 w2 hv hw b H1 H2 R1 R2. rewrite (var_set _ _ _ _ _ V) in H1. rewrite (var_set _ _ _ _ _ V) in H2.
    destruct (Nat.eqb_spec v w1), (Nat.eqb_spec v w2); try discriminate; eauto.
Qed.
Lemma inv_empty s v h : inv s -> var s v = Some h -> inv (set s v (Some (emptied h))).
Proof.
  intros I V. eapply inv_set; eauto.
  - apply handle_ok_emptied. eapply inv_vars; eauto.
  - intros w hw b _ _ _ [o P]. discriminate.
Qed.

(** ** unique() *)

Lemma filter_one {A} (f : A -> bool) l v x : nth_error l v = Some x -> f x = true ->
  ((length (filter f l) <= 1)%nat <-> (forall w y, nth_error l w = Some y -> f y = true -> w = v)).
Proof.
  revert v; induction l as [|a l IH]; intros [|v] H F; simpl in H; try discriminate.
  - injection H as ->. simpl. rewrite F. simpl. split.
    + intros L w y H G. destruct w as [|w]; auto. simpl in H. exfalso.
      assert (I : In y (filter f l)) by (apply filter_In; split; [eapply nth_error_In; eauto|auto]).
      destruct (filter f l); [destruct I|simpl in L; lia].
    + intros K. assert (E : filter f l = []); [|rewrite E; simpl; lia].
      destruct (filter f l) as [|y r] eqn:E; auto. exfalso.
      assert (I : In y (filter f l)) by (rewrite E; left; reflexivity).
      apply filter_In in I as [I G]. apply In_nth_error in I as [n I]. specialize (K (S n) y I G). discriminate.
  - simpl. destruct (f a) eqn:Fa.
    + split.
      * intros L. exfalso. assert (I : In x (filter f l)) by (apply filter_In; split; [eapply nth_error_In; eauto|auto]).
        destruct (filter f l); [destruct I|simpl in L; lia].
      * intros K. specialize (K 0%nat a eq_refl Fa). discriminate.
    + rewrite (IH v H F). split.
      * intros K [|w] y G Y; simpl in G; [congruence|]. f_equal. eauto.
      * intros K w y G Y. specialize (K (S w) y G Y). congruence.
Qed.
Lemma points_iff b h : points b (Some h) = true <-> refers h b.
Proof.
  unfold points, refers. destruct (h_ptr h) as [[b' o]|]; split; intros H; try discriminate.
  - apply Nat.eqb_eq in H as ->. eauto.
  - destruct H as [o' E]. injection E as -> ->. apply Nat.eqb_refl.
  - destruct H as [o' E]. discriminate.
Qed.
Lemma unique_iff s v h : var s v = Some h ->
  (unique s h = true <-> (forall w hw b, w <> v -> var s w = Some hw -> refers h b -> refers hw b -> False)).
Proof.
  intros V. unfold unique. destruct (h_ptr h) as [[b o]|] eqn:P.
  - assert (R : refers h b) by (exists o; auto).
    unfold var in V. destruct (nth_error (vars s) v) as [[h'|]|] eqn:N; try discriminate. injection V as ->.
    unfold use_count. rewrite Nat.leb_le, (filter_one _ _ _ _ N) by (apply points_iff; auto). split.
    + intros K w hw b' D W R1 R2. apply D.
      assert (b' = b) as -> by (destruct R1; congruence).
      unfold var in W. destruct (nth_error (vars s) w) as [[h2|]|] eqn:M; try discriminate. injection W as ->.
      apply (K w (Some hw) M). apply points_iff; auto.
    + intros K w y M Y. destruct y as [hw|]; [|discriminate].
      destruct (Nat.eq_dec w v) as [|D]; auto. exfalso. apply points_iff in Y.
      apply (K w hw b D); auto. unfold var. rewrite M. reflexivity.
  - split; auto. intros _ w hw b _ _ [o E]. congruence.
Qed.
Lemma unique_alone s v h : var s v = Some h -> (unique s h = true <-> alone s v).
Proof.
  intros V. rewrite (unique_iff s v h V). split.
  - intros K w D (hv & hw & b & o & p & V' & W & P & Q). rewrite V in V'. injection V' as <-.
    apply (K w hw b D W); [exists o|exists p]; auto.
  - intros K w hw b D W [o P] [p Q]. apply (K w D). exists h, hw, b, o, p. auto.
Qed.

(** ** The elements of a variable *)

Lemma elems_len s h : handle_ok s h -> length (elems s h) = h_count h.
Proof.
  intros [A B C]. unfold elems. destruct (h_ptr h) as [[b o]|] eqn:P.
  - destruct (B b o eq_refl) as (t & l & N & L & _). unfold memory.
    rewrite (nth_error_nth _ _ _ N). simpl. rewrite firstn_length, skipn_length. lia.
  - rewrite A; auto.
Qed.
Lemma forallb_sub {A} (f : A -> bool) l n o : forallb f l = true -> forallb f (firstn n (skipn o l)) = true.
Proof.
  intros F. apply forallb_forall. intros x I. rewrite forallb_forall in F. apply F.
  rewrite <- (firstn_skipn o l). apply in_or_app. right.
  rewrite <- (firstn_skipn n (skipn o l)). apply in_or_app. left. exact I.
Qed.
Lemma elems_fit s h : inv s -> handle_ok s h -> forallb (fits (h_type h)) (elems s h) = true.
Proof.
  intros I O. unfold elems. destruct (h_ptr h) as [[b o]|] eqn:P; auto.
  destruct (ho_buf _ _ O b o P) as (t & l & N & L & T). unfold memory. rewrite (nth_error_nth _ _ _ N). simpl.
  destruct T as [->|(_ & _ & Z)].
  - apply forallb_sub. apply (inv_bufs _ I) in N as [_ F]. exact F.
  - rewrite Z. reflexivity.
Qed.
Lemma elems_bufs s s' h : bufs s' = bufs s -> elems s' h = elems s h.
Proof. intros E. unfold elems, memory. rewrite E. reflexivity. Qed.
Lemma elems_alloc s t l h : handle_ok s h -> elems (alloc s t l) h = elems s h.
Proof.
  intros O. unfold elems. destruct (h_ptr h) as [[b o]|] eqn:P; auto.
  rewrite mem_alloc_old; auto. eapply refers_bound; eauto. exists o; auto.
Qed.
Lemma fits_fresh t n : elem_type t = true -> forallb (fits t) (repeat (fresh t) n) = true.
Proof.
  intros T. apply forallb_forall. intros x I. apply repeat_spec in I as ->. unfold fresh.
  unfold elem_type in T. apply orb_prop in T as [T|T].
  - destruct (t =? at_String)%Z eqn:S; [exact S|]. destruct (t =? at_Value)%Z eqn:V; [exact V|].
    apply orb_prop in T as [T|T]; [exact T|congruence].
  - destruct (t =? at_String)%Z eqn:S; [exact S|]. rewrite T. exact T.
Qed.

(** ** Conversions *)

Lemma lift_fits {A} (f : A -> elem) (r : cv A) t y :
  (match r with CV x => CV (f x) | CFail x => CFail x end) = CV y -> (forall x, fits t (f x) = true) -> fits t y = true.
Proof. destruct r; intros H F; [injection H as <-; auto|discriminate]. Qed.
Lemma conv_elem_fits fp st dt e y : conv_elem fp st dt e = CV y -> fits st e = true -> fits dt y = true.
Proof.
  unfold conv_elem. intros H F.
  destruct (negb (pod_type st || (st =? at_String)%Z) || negb (pod_type dt || (dt =? at_String)%Z)) eqn:G; [discriminate|].
  destruct (st =? dt)%Z eqn:E. { apply Z.eqb_eq in E as <-. injection H as <-. exact F. }
  apply orb_false_iff in G as [_ G]. apply negb_false_iff in G.
  destruct e; try discriminate.
  - destruct (dt =? at_String)%Z eqn:S.
    + eapply lift_fits; eauto.
    + eapply lift_fits; eauto. intros x. simpl. rewrite orb_false_r in G. exact G.
  - eapply lift_fits; eauto. intros x. simpl. destruct (dt =? at_String)%Z eqn:S; [|rewrite orb_false_r in G; exact G].
    exfalso. simpl in F. rewrite Z.eqb_eq in *. subst. rewrite Z.eqb_refl in E. discriminate.
Qed.
Lemma map_cv_F2 {A B} (f : A -> cv B) l r : map_cv f l = CV r -> Forall2 (fun x y => f x = CV y) l r.
Proof.
  revert r; induction l as [|x l IH]; simpl; intros r H; [injection H as <-; constructor|].
  destruct (f x) eqn:E; [|discriminate]. destruct (map_cv f l); [|discriminate]. injection H as <-. constructor; auto.
Qed.
Lemma convert_fits fp st dt l r : convert_arr fp st dt l = CV r -> forallb (fits st) l = true ->
  forallb (fits dt) r = true /\ length r = length l.
Proof.
  intros H. apply map_cv_F2 in H. induction H as [|x y l r E _ IH]; simpl; auto. intros F.
  apply andb_prop in F as [F1 F2]. destruct (IH F2) as [IH1 IH2]. split; [|congruence].
  rewrite (conv_elem_fits _ _ _ _ _ E F1). exact IH1.
Qed.
