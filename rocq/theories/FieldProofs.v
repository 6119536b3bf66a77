(** Facts on the numbering of fields ([field_at]). *)
From Coq Require Import ZArith List Bool Lia ZifyBool ZifyNat Relation_Operators.
From Verif Require Import Base BaseProofs WireModel TypeModel TypeSpec TypeProofs TypeNameProofs ValueModel ValueSpec LayoutProofs.
Import ListNotations.
Local Open Scope Z_scope.

Lemma nfields_pos m : (1 <= nfields m)%nat.
Proof. rewrite nfields_flatten. apply flatten_length. Qed.
Lemma nfields_struct m : m_code m = tc_Struct -> nfields m = S (total_fields (m_children m)).
Proof. destruct m as [code name id cs]. cbn [m_code m_children nfields]. intros ->. reflexivity. Qed.
Lemma total_fields_cons c l : total_fields (c :: l) = (nfields c + total_fields l)%nat.
Proof. reflexivity. Qed.

Lemma field_at_bound m path i d : field_at m path i d -> (1 <= i < nfields m)%nat.
Proof.
  intro H. induction H as [m pre c post E K|m pre c post path j d E K EC H IH];
    rewrite (nfields_struct m E), K, total_fields_app, total_fields_cons; pose proof (nfields_pos c); lia.
Qed.
Lemma field_at_sub_bound m path i d : field_at m path i d -> (i + nfields d <= nfields m)%nat.
Proof.
  intro H. induction H as [m pre c post E K|m pre c post path j d E K EC H IH];
    rewrite (nfields_struct m E), K, total_fields_app, total_fields_cons; lia.
Qed.

Lemma split_unique : forall pre pre' c c' post post' x x', pre ++ c :: post = pre' ++ c' :: post' ->
  (x < nfields c)%nat -> (x' < nfields c')%nat -> (total_fields pre + x = total_fields pre' + x')%nat ->
  pre = pre' /\ c = c' /\ post = post' /\ x = x'.
Proof.
  induction pre as [|a pre IH]; intros [|a' pre'] c c' post post' x x' E X X' T; cbn [app] in E; injection E as E1 E2.
  - subst. auto.
  - subst c. rewrite total_fields_cons in T. change (total_fields []) with 0%nat in T. lia.
  - subst c'. rewrite total_fields_cons in T. change (total_fields []) with 0%nat in T. lia.
  - subst a'. rewrite !total_fields_cons in T. destruct (IH pre' c c' post post' x x' E2 X X' ltac:(lia)) as (-> & -> & -> & ->). auto.
Qed.
Lemma field_at_inv m path i d : field_at m path i d -> exists pre c post, m_code m = tc_Struct /\ m_children m = pre ++ c :: post /\
  ((path = [m_name c] /\ i = (1 + total_fields pre)%nat /\ d = c)
   \/ exists q j, path = m_name c :: q /\ i = (1 + total_fields pre + j)%nat /\ m_code c = tc_Struct /\ field_at c q j d).
Proof.
  intro H. destruct H as [m pre c post E K|m pre c post path j d E K EC H]; exists pre, c, post; (split; [exact E|]); (split; [exact K|]).
  - left. auto.
  - right. exists path, j. auto.
Qed.
Lemma field_at_unique m path i d : field_at m path i d -> forall path' d', field_at m path' i d' -> path' = path /\ d' = d.
Proof.
  intro H. induction H as [m pre c post E K|m pre c post path j d E K EC H IH]; intros path' d' H';
    destruct (field_at_inv _ _ _ _ H') as (pre' & c' & post' & _ & K' & [(-> & I & ->)|(q & j' & -> & I & EC' & H0)]);
    rewrite K in K'; pose proof (nfields_pos c) as PC; pose proof (nfields_pos c') as PC'.
  - edestruct (split_unique _ _ _ _ _ _ 0%nat 0%nat K') as (-> & -> & _ & _); [lia|lia|lia|]. auto.
  - pose proof (field_at_bound _ _ _ _ H0). edestruct (split_unique _ _ _ _ _ _ 0%nat j' K') as (_ & _ & _ & X); [lia|lia|lia|]. lia.
  - pose proof (field_at_bound _ _ _ _ H). edestruct (split_unique _ _ _ _ _ _ j 0%nat K') as (_ & _ & _ & X); [lia|lia|lia|]. lia.
  - pose proof (field_at_bound _ _ _ _ H). pose proof (field_at_bound _ _ _ _ H0).
    edestruct (split_unique _ _ _ _ _ _ j j' K') as (-> & -> & _ & ->); [lia|lia|lia|]. destruct (IH _ _ H0) as (-> & ->). auto.
Qed.
(** every field but the root has a path *)
Lemma field_at_total m i : (1 <= i < nfields m)%nat -> exists path d, field_at m path i d.
Proof.
  intro B. assert (I : In i (map snd (plist m))).
  { rewrite plist_offs, <- nfields_flatten. apply in_seq. lia. }
  apply in_map_iff in I. destruct I as ((k & i') & E & I). cbn [snd] in E. subst i'.
  destruct (plist_field_at m k i I) as (path & d & _ & F). eauto.
Qed.
Lemma field_at_app m p i d : field_at m p i d -> forall q j e, m_code d = tc_Struct -> field_at d q j e -> field_at m (p ++ q) (i + j) e.
Proof.
  intro H. induction H as [m pre c post E K|m pre c post path j d E K EC H IH]; intros q k e S Q; cbn [app].
  - eapply fa_deeper; eauto.
  - replace (1 + total_fields pre + j + k)%nat with (1 + total_fields pre + (j + k))%nat by lia. eapply fa_deeper; eauto.
Qed.

Lemma located_node m i d : located m i d -> exists nd, nth_error (flatten m) i = Some nd /\ f_code nd = m_code d /\
  f_lookup nd = lookup_of d /\ f_iter nd = f_iter (hd (fd_new tc_Null) (flatten d)) /\ f_members nd = f_members (hd (fd_new tc_Null) (flatten d)).
Proof.
  intros (pre & p & post & F & L). rewrite <- L, F. unfold lookup_of. rewrite <- (flatten_hd_code d).
  pose proof (flatten_length d) as FL. destruct (flatten d) as [|x r]; [cbn in FL; lia|].
  replace (length pre) with (length pre + 0)%nat by lia. rewrite nth_error_mid; [|rewrite set_parent_length; cbn; lia].
  cbn. eexists. split; [reflexivity|]. cbn. auto.
Qed.
Lemma located_nodes m i d j : located m i d -> (1 <= j < nfields d)%nat -> nth_error (flatten m) (i + j) = nth_error (flatten d) j.
Proof.
  intros (pre & p & post & F & L) B. rewrite <- L, F. rewrite nfields_flatten in B. rewrite nth_error_mid; [|rewrite set_parent_length; lia].
  destruct j; [lia|]. apply nth_error_set_parent.
Qed.
Lemma field_at_names P m path i d : field_at m path i d -> all_names P m -> all_names P d.
Proof.
  intro H. induction H as [m pre c post E K|m pre c post path j d E K EC H IH]; intro A; destruct m as [code name id cs];
    cbn [m_children] in K; subst cs; apply all_names_children in A; rewrite Forall_forall in A;
    destruct (A c (in_elt _ _ _)) as (_ & A'); auto.
Qed.
Lemma field_at_distinct m path i d : field_at m path i d -> distinct_struct_names m -> distinct_struct_names d.
Proof.
  intro H. induction H as [m pre c post E K|m pre c post path j d E K EC H IH]; intro A; destruct m as [code name id cs];
    cbn [m_children] in K; subst cs; apply distinct_children in A; destruct A as (_ & A); rewrite Forall_forall in A;
    specialize (A c (in_elt _ _ _)); auto.
Qed.
Lemma field_at_describable m path i d : field_at m path i d -> describable m = true -> describable d = true.
Proof.
  assert (G : forall m pre c post, m_code m = tc_Struct -> m_children m = pre ++ c :: post -> describable m = true -> describable c = true).
  { intros [code name id cs] pre c post E K D. cbn [m_code m_children] in *. subst. cbn [describable] in D.
    change (has_members tc_Struct) with true in D. cbv iota in D. apply andb_prop in D. destruct D as (_ & D).
    rewrite forallb_forall in D. specialize (D c (in_elt _ _ _)). apply andb_prop in D. tauto. }
  intro H. induction H as [m pre c post E K|m pre c post path j d E K EC H IH]; intro D; eauto.
Qed.
Lemma field_at_good m path i d : field_at m path i d -> good_type m -> good_type d.
Proof.
  intros F (A & B & C). split; [eapply field_at_describable; eauto|]. split; [eapply field_at_distinct; eauto|eapply field_at_names; eauto].
Qed.
Lemma good_lay m : good_type m -> lay (flatten m).
Proof. intros (_ & A & B). apply lay_flatten. now apply plist_NoDup. Qed.
Lemma good_NoDup m : good_type m -> NoDup (keys (plist m)).
Proof. intros (_ & A & B). now apply plist_NoDup. Qed.
Lemma good_size m : good_type m -> f_size (first_node (flatten m)) = length (flatten m).
Proof. intro G. apply lay_length, good_lay, G. Qed.

(** a node of size n inside *)
Lemma field_at_size m path i d nd : good_type m -> field_at m path i d -> nth_error (flatten m) i = Some nd -> f_size nd = nfields d.
Proof.
  intros G F E. destruct (located_node m i d (field_at_located _ _ _ _ F)) as (nd' & E' & C & LK & IT & MB).
  rewrite E in E'. injection E' as <-. pose proof (good_size d (field_at_good _ _ _ _ F G)) as SZ. rewrite nfields_flatten, <- SZ.
  unfold f_size, first_node, lookup_of in *. now rewrite MB, LK.
Qed.
Lemma field_inside_iff m path i d k : good_type m -> field_at m path i d ->
  (is_inside (flatten m) i k <-> (i < k < i + nfields d)%nat).
Proof.
  intros G F. destruct (located_node m i d (field_at_located _ _ _ _ F)) as (nd & E & _).
  rewrite (inside_iff _ i k nd (good_lay m G) E). now rewrite (field_at_size m path i d nd G F E).
Qed.
Lemma root_inside_iff m k : good_type m -> (is_inside (flatten m) 0 k <-> (0 < k < nfields m)%nat).
Proof.
  intro G. pose proof (flatten_length m) as FL. destruct (flatten m) as [|x r] eqn:E; [cbn in FL; lia|]. rewrite <- E.
  rewrite (inside_iff (flatten m) 0 k x (good_lay m G)) by (rewrite E; reflexivity).
  rewrite nfields_flatten, <- (good_size m G). rewrite E. cbn [first_node hd]. rewrite Nat.add_0_l. tauto.
Qed.
(** inside a field: its path continues *)
Lemma nfields_not_struct m : m_code m <> tc_Struct -> nfields m = 1%nat.
Proof. destruct m as [code name id cs]. cbn [m_code nfields]. intro N. now rewrite (proj2 (Z.eqb_neq _ _) N). Qed.
Lemma field_inside_path m p i d k : good_type m -> field_at m p i d -> is_inside (flatten m) i k ->
  exists q e, q <> [] /\ field_at m (p ++ q) k e /\ m_code d = tc_Struct.
Proof.
  intros G F I. apply (field_inside_iff m p i d k G F) in I. destruct (Z.eq_dec (m_code d) tc_Struct) as [S|N]; [|rewrite (nfields_not_struct d N) in I; lia].
  destruct (field_at_total d (k - i)%nat ltac:(lia)) as (q & e & Q). exists q, e. split; [intros ->; inversion Q|]. split; [|exact S].
  replace k with (i + (k - i))%nat by lia. eapply field_at_app; eauto.
Qed.
(** a prefix of a path is a path to a Struct *)
Lemma field_at_prefix : forall p m q i d, field_at m (p ++ q) i d -> p <> [] -> q <> [] ->
  exists j e, field_at m p j e /\ m_code e = tc_Struct /\ m_children e <> [].
Proof.
  induction p as [|n p IH]; intros m q i d F P Q; [easy|]. cbn [app] in F.
  destruct (field_at_inv _ _ _ _ F) as (pre & c & post & E & K & [(X & -> & ->)|(path & j & X & -> & EC & H)]).
  - injection X as _ X. destruct p; [|easy]. cbn [app] in X. subst. easy.
  - injection X as -> <-. destruct p as [|n' p].
    + exists (1 + total_fields pre)%nat, c. split; [eapply fa_child; eauto|]. split; [exact EC|]. cbn [app] in H.
      intro N. destruct (field_at_inv _ _ _ _ H) as (pre' & ? & ? & _ & K' & _). rewrite N in K'. now destruct pre'.
    + destruct (IH c q j d H ltac:(easy) Q) as (k & e & A & B). exists (1 + total_fields pre + k)%nat, e. split; [|exact B]. eapply fa_deeper; eauto.
Qed.
(** names lead to one field *)
Lemma lookup_field m path i d : good_type m -> m_code m = tc_Struct -> field_at m path i d -> map_get (join path) (lookup_of m) = Some i.
Proof.
  intros G S F. destruct (field_at_plist m path i d F) as (_ & I). apply map_get_In; [apply sorted_NoDup, lookup_sorted|].
  apply lookup_In; auto. now apply good_NoDup.
Qed.
Lemma lookup_field_only m key i : m_code m = tc_Struct -> map_get key (lookup_of m) = Some i -> exists path d, key = join path /\ field_at m path i d.
Proof.
  intros S H. apply map_get_In in H; [|apply sorted_NoDup, lookup_sorted]. apply lookup_incl in H; [|exact S]. exact (plist_field_at m key i H).
Qed.
Lemma join_inj : forall p q, Forall no_dot p -> Forall no_dot q -> p <> [] -> q <> [] -> join p = join q -> p = q.
Proof.
  induction p as [|a p IH]; intros [|b q] P Q NP NQ E; try easy. inversion P; inversion Q; subst.
  assert (C : forall x r, no_dot x -> first_comp (join (x :: r)) = x).
  { intros x r N. destruct r; [apply first_comp_plain; exact N|]. apply first_comp_dotted. exact N. }
  assert (AB : a = b) by (rewrite <- (C a p), <- (C b q), E by assumption; reflexivity). subst b. f_equal.
  destruct p as [|x p], q as [|y q]; [reflexivity| | |].
  - exfalso. change (join [a]) with a in E. change (join (a :: y :: q)) with (a ++ dot :: join (y :: q)) in E.
    assert (L : length a = length (a ++ dot :: join (y :: q))) by now rewrite <- E. rewrite app_length in L. cbn in L. lia.
  - exfalso. change (join [a]) with a in E. change (join (a :: x :: p)) with (a ++ dot :: join (x :: p)) in E.
    assert (L : length a = length (a ++ dot :: join (x :: p))) by now rewrite E. rewrite app_length in L. cbn in L. lia.
  - apply IH; try easy. change (join (a :: x :: p)) with (a ++ dot :: join (x :: p)) in E.
    change (join (a :: y :: q)) with (a ++ dot :: join (y :: q)) in E. eapply prefix_inj; exact E.
Qed.
Lemma field_at_no_dot m path i d : field_at m path i d -> all_names no_dot m -> Forall no_dot path.
Proof.
  intro H. induction H as [m pre c post E K|m pre c post path j d E K EC H IH]; intro A; destruct m as [code name id cs];
    cbn [m_children] in K; subst cs; apply all_names_children in A; rewrite Forall_forall in A;
    destruct (A c (in_elt _ _ _)) as (N & A'); constructor; auto.
Qed.
Lemma lookup_length m : good_type m -> m_code m = tc_Struct -> length (lookup_of m) = (nfields m - 1)%nat.
Proof.
  intros G S. pose proof (proj2 (lookup_length_eq m S) (good_NoDup m G)) as L. rewrite L, plist_length, nfields_flatten. reflexivity.
Qed.
(** the numbers in the table are all fields but the root *)
Lemma lookup_offs m k : good_type m -> m_code m = tc_Struct -> ((exists p, In p (lookup_of m) /\ snd p = k) <-> (1 <= k < nfields m)%nat).
Proof.
  intros G S. rewrite nfields_flatten. split.
  - intros ((n & i) & I & <-). apply lookup_incl in I; [|exact S]. apply (in_map snd) in I. rewrite plist_offs in I. apply in_seq in I. cbn [snd] in *. lia.
  - intro B. assert (I : In k (map snd (plist m))) by (rewrite plist_offs; apply in_seq; lia).
    apply in_map_iff in I. destruct I as ((n & i) & E & I). exists (n, i). split; [|exact E]. apply lookup_In; auto. now apply good_NoDup.
Qed.
