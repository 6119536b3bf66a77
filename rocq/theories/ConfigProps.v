(** C49 timeouts, C50 duplicate addresses, C68 configuration written and read back, C69 port numbers,
    C70 lists of addresses. *)
From Coq Require Import ZArith QArith List Bool Lia Lqa Permutation.
From Verif Require Import Base BaseProofs WireModel TextModel TextSpec TextProofs TextProps ConfigModel ConfigSpec.
Import ListNotations.
Local Open Scope Z_scope.

(** ** C49 *)
Lemma q_lt_spec : forall a b, q_lt a b = true <-> (a < b)%Q.
Proof.
  intros a b. unfold q_lt. rewrite negb_true_iff. split; intros H.
  - apply Qnot_le_lt. intros X. apply Qle_bool_iff in X. congruence.
  - destruct (Qle_bool b a) eqn:E; auto. apply Qle_bool_iff in E. elim (Qlt_not_le _ _ H E).
Qed.
Lemma q_lt_false : forall a b, q_lt a b = false <-> (b <= a)%Q.
Proof. intros a b. unfold q_lt. rewrite negb_false_iff. apply Qle_bool_iff. Qed.
Lemma Qle_bool_false : forall a b, Qle_bool a b = false <-> (b < a)%Q.
Proof. intros a b. rewrite <- q_lt_spec. unfold q_lt. rewrite negb_true_iff. reflexivity. Qed.

(** whatever the number, the timeout in effect is usable *)
Theorem C49_usable : forall t, usable (enforce_timeout t).
Proof.
  assert (U40 : usable (Fin 40)) by (exists 40%Q; split; [reflexivity|]; split; [unfold Qle; cbn; lia|unfold Qlt; cbn; lia]).
  assert (U2 : usable (Fin 2)) by (exists 2%Q; split; [reflexivity|]; split; [unfold Qle; cbn; lia|unfold Qlt; cbn; lia]).
  intros [|n|q]; cbn [enforce_timeout]; auto.
  destruct (Qle_bool q 0) eqn:Z; cbn [orb]; auto. destruct (Qle_bool time_max q) eqn:M; auto.
  destruct (q_lt q 2) eqn:L; auto. exists q. split; [reflexivity|]. apply q_lt_false in L. apply Qle_bool_false in M. auto.
Qed.
(** a usable one is not changed; one too short becomes the minimum; the rest the default *)
Theorem C49_kept : forall t, usable t -> enforce_timeout t = t.
Proof.
  intros t (q & -> & L & M). cbn [enforce_timeout].
  assert (A : Qle_bool q 0 = false) by (apply Qle_bool_false; lra).
  assert (B : Qle_bool time_max q = false) by (apply Qle_bool_false; exact M).
  assert (C : q_lt q 2 = false) by (apply q_lt_false; exact L). rewrite A, B, C. reflexivity.
Qed.
Theorem C49_others : forall t, ~ usable t ->
  enforce_timeout t = match t with Fin q => if q_lt 0 q && q_lt q 2 then Fin 2 else Fin 40 | _ => Fin 40 end.
Proof.
  intros [|n|q] N; auto. cbn [enforce_timeout].
  destruct (Qle_bool q 0) eqn:Z; cbn [orb].
  - replace (q_lt 0 q) with false; auto. symmetry. apply q_lt_false. apply Qle_bool_iff. auto.
  - replace (q_lt 0 q) with true by (symmetry; apply q_lt_spec, Qle_bool_false; auto). cbn [andb].
    destruct (Qle_bool time_max q) eqn:M.
    + replace (q_lt q 2) with false; auto. symmetry. apply q_lt_false. apply Qle_bool_iff in M. unfold time_max in M.
      eapply Qle_trans; [|exact M]. unfold Qle; cbn; lia.
    + destruct (q_lt q 2) eqn:L; auto. elim N. exists q. split; auto. apply q_lt_false in L. apply Qle_bool_false in M. auto.
Qed.
(** the same for the definition as text, valid or not, after any earlier value *)
Theorem C49_from_text : forall old v, usable (enforce_timeout (parse_timeout old v)).
Proof. intros. apply C49_usable. Qed.
(** a definition of t seconds gives 4/3 t; 1.5 s is the least one which has effect *)
Theorem C49_scaled : forall old q, (3 # 2 <= q)%Q -> (q * 4 < 3 * inject_Z (2 ^ 63))%Q ->
  exists e, enforce_timeout (parse_timeout old (Some (Fin q))) = Fin e /\ (e == q * 4 / 3)%Q.
Proof.
  intros old q L M. cbn [parse_timeout].
  assert (T : time_max = inject_Z (2 ^ 63)) by reflexivity.
  assert (A : q_lt q 0 = false) by (apply q_lt_false; lra).
  assert (P : (0 < inject_Z (2 ^ 63))%Q) by (unfold Qlt; cbn; lia).
  assert (B : q_lt time_max q = false) by (apply q_lt_false; rewrite T; lra).
  rewrite A, B. cbn [orb].
  rewrite C49_kept; [eexists; split; [reflexivity|]; field|].
  exists (q * (4 # 3))%Q. split; [reflexivity|]. split; lra.
Qed.
(** an idle client sends at least two echo requests within the timeout, and at most one per second *)
Theorem C49_echo : forall t q, enforce_timeout t = Fin q -> (1 <= echo_period q)%Q /\ (echo_period q * 2 <= q)%Q /\ (echo_period q <= 15)%Q.
Proof.
  intros t q E. destruct (C49_usable t) as (q' & E' & L & _). rewrite E in E'. injection E' as <-.
  unfold echo_period. assert (X : (q * 3 / 8 == q * (3 # 8))%Q) by field.
  destruct (Qle_bool 15 (q * 3 / 8)) eqn:A.
  - apply Qle_bool_iff in A. rewrite X in A. change (Qle_bool 15 1) with false. cbv iota. split; [lra|]; split; lra.
  - apply Qle_bool_false in A. rewrite X in A. destruct (Qle_bool (q * 3 / 8) 1) eqn:B.
    + split; [lra|]; split; lra.
    + apply Qle_bool_false in B. rewrite X in B. rewrite ?X. split; [lra|]; split; lra.
Qed.
Example C49_example :
  enforce_timeout (Fin (1 # 2)) = Fin 2 /\ enforce_timeout NaN = Fin 40 /\ enforce_timeout (Fin (-3)) = Fin 40 /\
  enforce_timeout (Fin 7) = Fin 7 /\ enforce_timeout (parse_timeout (Fin 5) (Some (Inf false))) = Fin 5.
Proof. repeat split; vm_compute; reflexivity. Qed.

(** ** C50 *)
Lemma same_dest_spec : forall a b, same_dest a b = true <-> dest a = dest b.
Proof.
  intros a b. unfold same_dest, dest. rewrite andb_true_iff, Z.eqb_eq, str_eqb_eq. split; [intros (-> & ->); reflexivity|].
  intros E. injection E. auto.
Qed.
Fixpoint find_idx (x : endpoint) (l : list endpoint) : option nat :=
  match l with
  | [] => None
  | e :: l' => if same_dest x e then Some O else option_map S (find_idx x l')
  end.
Definition put (kept : list endpoint) (ep : endpoint) : list endpoint :=
  match find_idx ep kept with
  | None => kept ++ [ep]
  | Some i => if get_ttl i kept <? e_ttl ep then set_ttl i (e_ttl ep) kept else kept
  end.
Lemma find_idx_snoc : forall x l e, find_idx x (l ++ [e]) =
  match find_idx x l with Some i => Some i | None => if same_dest x e then Some (length l) else None end.
Proof.
  induction l as [|a l IH]; intros e; cbn [app find_idx length]; [destruct (same_dest x e); reflexivity|].
  destruct (same_dest x a); auto. rewrite IH. destruct (find_idx x l); cbn; auto. destruct (same_dest x e); reflexivity.
Qed.
Lemma same_dest_ttl : forall x e t, same_dest x {| e_addr := e_addr e; e_ttl := t; e_iface := e_iface e |} = same_dest x e.
Proof. reflexivity. Qed.
Lemma find_idx_set : forall x t l i, find_idx x (set_ttl i t l) = find_idx x l.
Proof. intros x t. induction l as [|a l IH]; intros [|i]; cbn [set_ttl find_idx]; auto. rewrite IH. reflexivity. Qed.
Lemma dedup_put : forall l kept seen, (forall x, find_dest x seen = find_idx x kept) -> dedup kept seen l = fold_left put l kept.
Proof.
  induction l as [|e l IH]; intros kept seen H; [reflexivity|]. cbn [dedup fold_left]. unfold put at 2. rewrite H.
  destruct (find_idx e kept) as [i|] eqn:F.
  - apply IH. intros x. rewrite H. destruct (get_ttl i kept <? e_ttl e); auto. rewrite find_idx_set. reflexivity.
  - apply IH. intros x. cbn [find_dest]. rewrite find_idx_snoc, H. destruct (same_dest x e) eqn:S; [|destruct (find_idx x kept); reflexivity].
    apply same_dest_spec in S.
    assert (X : find_idx x kept = find_idx e kept).
    { clear F H. induction kept as [|a k IHk]; auto. cbn [find_idx]. rewrite IHk.
      replace (same_dest x a) with (same_dest e a); auto.
      destruct (same_dest e a) eqn:A, (same_dest x a) eqn:B; auto; [apply same_dest_spec in A|apply same_dest_spec in B];
        [assert (same_dest x a = true) by (apply same_dest_spec; congruence)|assert (same_dest e a = true) by (apply same_dest_spec; congruence)]; congruence. }
    rewrite X, F. reflexivity.
Qed.
Lemma find_idx_none : forall x l, find_idx x l = None <-> ~ In (dest x) (map dest l).
Proof.
  induction l as [|a l IH]; cbn [find_idx map In]; [tauto|]. destruct (same_dest x a) eqn:S.
  - apply same_dest_spec in S. split; [discriminate|]. intros N. elim N. auto.
  - assert (D : dest a <> dest x) by (intros E; symmetry in E; apply same_dest_spec in E; congruence).
    destruct (find_idx x l) as [i|]; cbn.
    + split; [discriminate|]. intros N. destruct IH as [_ IH]. assert (Some i = None) by (apply IH; tauto). discriminate.
    + split; auto. intros _ [X|X]; [tauto|]. apply IH in X; auto.
Qed.
Lemma find_idx_some : forall x l i, find_idx x l = Some i -> exists e, nth_error l i = Some e /\ dest e = dest x.
Proof.
  induction l as [|a l IH]; intros i; cbn [find_idx]; [discriminate|]. destruct (same_dest x a) eqn:S.
  - apply same_dest_spec in S. intros E. injection E as <-. exists a. auto.
  - destruct (find_idx x l) as [j|]; [|discriminate]. intros E. injection E as <-. cbn. auto.
Qed.
Lemma set_ttl_dest : forall t l i, map dest (set_ttl i t l) = map dest l.
Proof. intros t. induction l as [|a l IH]; intros [|i]; cbn [set_ttl map]; auto. rewrite IH. reflexivity. Qed.
Lemma set_ttl_in : forall t l i e e', nth_error l i = Some e -> In e' (set_ttl i t l) ->
  In e' l \/ (dest e' = dest e /\ e_ttl e' = t).
Proof.
  intros t. induction l as [|a l IH]; intros [|i] e e' N H; cbn in *; try discriminate.
  - injection N as ->. destruct H as [<-|H]; auto.
  - destruct H as [<-|H]; auto. destruct (IH _ _ _ N H); auto.
Qed.
Lemma nodup_nth : forall l i e e', NoDup (map dest l) -> nth_error l i = Some e -> In e' l -> dest e' = dest e -> e' = e.
Proof.
  induction l as [|a l IH]; intros [|i] e e' D N H E; cbn in *; try discriminate; inversion D; subst.
  - injection N as ->. destruct H as [->|H]; auto. elim H2. rewrite <- E. apply in_map; auto.
  - destruct H as [->|H]; eauto. elim H2. rewrite E. apply in_map. eapply nth_error_In; eauto.
Qed.
Lemma set_ttl_in' : forall t l i e e', NoDup (map dest l) -> nth_error l i = Some e -> In e' (set_ttl i t l) ->
  (In e' l /\ dest e' <> dest e) \/ (dest e' = dest e /\ e_ttl e' = t).
Proof.
  intros t. induction l as [|a l IH]; intros [|i] e e' D N H; cbn in *; try discriminate; inversion D; subst.
  - injection N as ->. destruct H as [<-|H]; auto. left. split; auto. intros E. elim H2. rewrite <- E. apply in_map; auto.
  - destruct H as [<-|H].
    + left. split; auto. intros E. elim H2. rewrite E. apply in_map. eapply nth_error_In; eauto.
    + destruct (IH _ _ _ H3 N H) as [(A & B)|A]; auto.
Qed.
Lemma fio_nodup : forall A (ks l : list A), first_in_order ks l -> NoDup ks /\ forall k, In k ks <-> In k l.
Proof.
  intros A ks l H. induction H as [|ks l k _ (ND & I) N|ks l k _ (ND & I) N].
  - split; [constructor|tauto].
  - split.
    + apply (Permutation_NoDup (Permutation_cons_append ks k)). constructor; auto. rewrite I. auto.
    + intros x. rewrite !in_app_iff, I. tauto.
  - split; auto. intros x. rewrite !in_app_iff, I. cbn. intuition. subst. auto.
Qed.
Lemma put_spec : forall l,
  let r := fold_left put l [] in
  first_in_order (map dest r) (map dest l) /\
  (forall e, In e r -> (exists e', In e' l /\ dest e' = dest e /\ e_ttl e' = e_ttl e) /\
                       forall e', In e' l -> dest e' = dest e -> e_ttl e' <= e_ttl e).
Proof.
  intros l. cbv zeta. induction l as [|ep l (F & T)] using rev_ind; [cbn; split; [constructor|intros ? []]|].
  rewrite fold_left_app, map_app. cbn [fold_left map]. set (kept := fold_left put l []) in *. unfold put.
  destruct (fio_nodup _ _ _ F) as (ND & SAME).
  destruct (find_idx ep kept) as [i|] eqn:FI.
  - destruct (find_idx_some _ _ _ FI) as (e & N & DE).
    assert (IN : In (dest ep) (map dest l)). { apply SAME. rewrite <- DE. apply in_map. eapply nth_error_In; eauto. }
    split.
    + replace (map dest (if get_ttl i kept <? e_ttl ep then set_ttl i (e_ttl ep) kept else kept)) with (map dest kept) by
        (destruct (get_ttl i kept <? e_ttl ep); rewrite ?set_ttl_dest; reflexivity).
      apply fio_again; auto.
    + assert (G : get_ttl i kept = e_ttl e) by (unfold get_ttl; rewrite N; reflexivity). rewrite G.
      destruct (T e (nth_error_In _ _ N)) as ((m & M1 & M2 & M3) & TM).
      destruct (e_ttl e <? e_ttl ep) eqn:L.
      * apply Z.ltb_lt in L. intros e' H. destruct (set_ttl_in' _ _ _ _ _ ND N H) as [(A & B)|(A & B)].
        -- destruct (T e' A) as ((m' & M1' & M2' & M3') & TM'). split; [exists m'; repeat split; auto; apply in_or_app; auto|].
           intros x X DX. apply in_app_or in X. destruct X as [X|[<-|[]]]; auto. congruence.
        -- split; [exists ep; rewrite B, A; repeat split; auto; apply in_or_app; right; left; reflexivity|].
           intros x X DX. apply in_app_or in X. destruct X as [X|[<-|[]]]; [|lia]. specialize (TM x X). rewrite B. rewrite DX, A in TM. specialize (TM eq_refl). lia.
      * apply Z.ltb_ge in L. intros e' H. destruct (T e' H) as ((m' & M1' & M2' & M3') & TM'). split; [exists m'; repeat split; auto; apply in_or_app; auto|].
        intros x X DX. apply in_app_or in X. destruct X as [X|[<-|[]]]; auto.
        assert (e' = e) by (eapply nodup_nth; eauto; congruence). subst e'. lia.
  - assert (NI : ~ In (dest ep) (map dest l)) by (rewrite <- SAME; apply find_idx_none; auto).
    split; [rewrite map_app; apply fio_new; auto|].
    intros e H. apply in_app_or in H. destruct H as [H|[<-|[]]].
    + destruct (T e H) as ((m & M1 & M2 & M3) & TM). split; [exists m; repeat split; auto; apply in_or_app; auto|].
      intros x X DX. apply in_app_or in X. destruct X as [X|[<-|[]]]; auto. elim NI. apply SAME. rewrite DX. apply in_map. auto.
    + split; [exists ep; repeat split; auto; apply in_or_app; right; left; reflexivity|].
      intros x X DX. apply in_app_or in X. destruct X as [X|[<-|[]]]; [|lia]. elim NI. rewrite <- DX. apply in_map. auto.
Qed.

(** every distinct destination exactly once, in order of first appearance, with the longest time to
    live given for it *)
Theorem C50_endpoints : forall l,
  first_in_order (map dest (remove_dups l)) (map dest l) /\ NoDup (map dest (remove_dups l)) /\
  (forall e, In e (remove_dups l) ->
     (exists e', In e' l /\ dest e' = dest e /\ e_ttl e' = e_ttl e) /\
     forall e', In e' l -> dest e' = dest e -> e_ttl e' <= e_ttl e).
Proof.
  intros l. unfold remove_dups. rewrite (dedup_put l [] []) by reflexivity. destruct (put_spec l) as (A & B).
  split; auto. split; auto. apply (fio_nodup _ _ _ A).
Qed.
Example C50_example :
  let e a t i := {| e_addr := a; e_ttl := t; e_iface := i |} in
  remove_dups [e 1 5 []; e 2 1 []; e 1 7 []; e 1 3 [65]; e 2 0 []] = [e 1 7 []; e 2 1 []; e 1 3 [65]].
Proof. vm_compute. reflexivity. Qed.

(** lists of strings (of the ignored peers, and all lists given as text): sorted instead *)
Lemma str_leb_refl : forall a, str_leb a a = true.
Proof. induction a as [|x a IH]; cbn; auto. rewrite Z.ltb_irrefl. auto. Qed.
Lemma str_leb_total : forall a b, str_leb a b = false -> str_leb b a = true.
Proof.
  induction a as [|x a IH]; destruct b as [|y b]; cbn; try discriminate; auto.
  destruct (x <? y) eqn:A; [discriminate|]. destruct (y <? x); auto.
Qed.
Lemma str_leb_trans : forall a b c, str_leb a b = true -> str_leb b c = true -> str_leb a c = true.
Proof.
  induction a as [|x a IH]; destruct b as [|y b], c as [|z c]; cbn; try discriminate; auto.
  destruct (x <? y) eqn:A, (y <? z) eqn:B; intros H1 H2.
  - replace (x <? z) with true by (symmetry; apply Z.ltb_lt; apply Z.ltb_lt in A, B; lia). auto.
  - destruct (z <? y) eqn:C; [discriminate|]. replace (x <? z) with true by (symmetry; apply Z.ltb_lt; apply Z.ltb_lt in A; apply Z.ltb_ge in B, C; lia). auto.
  - destruct (y <? x) eqn:C; [discriminate|]. replace (x <? z) with true by (symmetry; apply Z.ltb_lt; apply Z.ltb_lt in B; apply Z.ltb_ge in A, C; lia). auto.
  - destruct (y <? x) eqn:C; [discriminate|]. destruct (z <? y) eqn:D; [discriminate|]. assert (x = y) by (apply Z.ltb_ge in A, C; lia).
    assert (y = z) by (apply Z.ltb_ge in B, D; lia). subst. rewrite Z.ltb_irrefl. eauto.
Qed.
Lemma str_leb_anti : forall a b, str_leb a b = true -> str_leb b a = true -> a = b.
Proof.
  induction a as [|x a IH]; destruct b as [|y b]; cbn; try discriminate; auto.
  destruct (x <? y) eqn:A, (y <? x) eqn:B; intros H1 H2; try discriminate.
  - apply Z.ltb_lt in A, B. lia.
  - apply Z.ltb_ge in A, B. assert (x = y) by lia. subst. f_equal. auto.
Qed.
Inductive sorted : list str -> Prop :=
| sorted_nil : sorted []
| sorted_cons : forall x l, (forall y, In y l -> str_leb x y = true) -> sorted l -> sorted (x :: l).
Lemma insert_in : forall x l y, In y (insert x l) <-> y = x \/ In y l.
Proof.
  induction l as [|a l IH]; intros y; cbn [insert In]; [intuition|]. destruct (str_leb x a); cbn [In]; [intuition|]. rewrite IH. intuition.
Qed.
Lemma insert_sorted : forall x l, sorted l -> sorted (insert x l).
Proof.
  induction l as [|a l IH]; intros H; cbn [insert]; [constructor; [intros ? []|constructor]|].
  inversion H; subst. destruct (str_leb x a) eqn:E.
  - constructor; auto. intros y [<-|Y]; auto. eapply str_leb_trans; eauto.
  - constructor; auto. intros y Y. apply insert_in in Y. destruct Y as [->|Y]; auto. apply str_leb_total; auto.
Qed.
Lemma sort_in : forall l y, In y (sort l) <-> In y l.
Proof. induction l as [|a l IH]; intros y; cbn; [tauto|]. rewrite insert_in. fold (sort l). rewrite IH. intuition. Qed.
Lemma sort_sorted : forall l, sorted (sort l).
Proof. induction l; cbn; [constructor|]. apply insert_sorted; auto. Qed.
Lemma unique_in : forall l y, In y (unique l) <-> In y l.
Proof.
  induction l as [|a l IH]; intros y; [tauto|]. destruct l as [|b l]; [tauto|]. cbn [unique]. destruct (str_eqb a b) eqn:E.
  - apply str_eqb_eq in E. subst b. change (In y (unique (a :: l)) <-> In y (a :: a :: l)). rewrite IH. cbn. tauto.
  - change (In y (a :: unique (b :: l)) <-> In y (a :: b :: l)). cbn [In]. rewrite IH. cbn. tauto.
Qed.
Lemma unique_nodup : forall l, sorted l -> NoDup (unique l).
Proof.
  induction l as [|a l IH]; intros S; [constructor|]. inversion S; subst. destruct l as [|b l]; [repeat constructor; auto|].
  change (NoDup (if str_eqb a b then unique (b :: l) else a :: unique (b :: l))). destruct (str_eqb a b) eqn:E; auto.
  constructor; auto. rewrite unique_in. intros [->|X]; [rewrite str_eqb_refl in E; discriminate|].
  inversion H2; subst. assert (a = b) by (apply str_leb_anti; [apply H1; left; reflexivity|auto]). subst. rewrite str_eqb_refl in E. discriminate.
Qed.
Theorem C50_strings_partial : forall l, NoDup (sort_unique l) /\ same_set (sort_unique l) l.
Proof.
  intros l. unfold sort_unique. split; [apply unique_nodup, sort_sorted|]. intros a. rewrite unique_in. apply sort_in.
Qed.
(** the order is not that of first appearance *)
Theorem C50_strings_refuted : exists l, ~ first_in_order (sort_unique l) l.
Proof.
  exists [[50]; [49]]. change (sort_unique [[50]; [49]]) with [[49]; [50]].
  assert (G : forall (ks l : list str), first_in_order ks l -> forall x m, l = x :: m -> exists r, ks = x :: r).
  { intros ks l H. induction H as [|ks l k H IH N|ks l k H IH N]; intros x m E; [discriminate| |]; destruct l as [|y l].
    - inversion H; subst; [|destruct l; discriminate|destruct l; discriminate]. injection E as -> _. exists []. reflexivity.
    - injection E as -> _. destruct (IH x l eq_refl) as (r & ->). exists (r ++ [k]). reflexivity.
    - destruct N.
    - injection E as -> _. apply (IH x l eq_refl). }
  intros H. destruct (G _ _ H _ _ eq_refl) as (r & E). discriminate.
Qed.

(** ** C70 *)
Lemma blank_spec : forall c, blank c = true <-> space c.
Proof. intros c. unfold blank, space. rewrite !orb_true_iff, !Z.eqb_eq. tauto. Qed.
Lemma blank_false : forall c, blank c = false <-> ~ space c.
Proof. intros c. rewrite <- blank_spec. destruct (blank c); split; intros; try congruence; try discriminate. Qed.
Lemma take_word_spec : forall s w r, take_word s = (w, r) ->
  s = w ++ r /\ Forall (fun c => ~ space c) w /\ (r = [] \/ exists c p, r = c :: p /\ space c).
Proof.
  induction s as [|c s IH]; intros w r; cbn; [intros E; injection E as <- <-; auto|]. destruct (blank c) eqn:B.
  - intros E. injection E as <- <-. repeat split; auto. right. exists c, s. split; auto. apply blank_spec; auto.
  - destruct (take_word s) as [w' r'] eqn:T. intros E. injection E as <- <-. destruct (IH _ _ eq_refl) as (-> & F & R). repeat split; auto.
    constructor; auto. apply blank_false; auto.
Qed.
Lemma skip_blank_spec : forall s, exists p, s = p ++ skip_blank s /\ Forall space p /\ (skip_blank s = [] \/ exists c t, skip_blank s = c :: t /\ ~ space c).
Proof.
  induction s as [|c s (p & E & F & H)]; cbn; [exists []; auto|]. destruct (blank c) eqn:B.
  - exists (c :: p). cbn. rewrite <- E. repeat split; auto. constructor; auto. apply blank_spec; auto.
  - exists []. repeat split; auto. right. exists c, s. split; auto. apply blank_false; auto.
Qed.
(** the first word, or none *)
Lemma word_split : forall w p w1 r, Forall space p -> w1 <> [] -> Forall (fun c => ~ space c) w1 -> (r = [] \/ exists c q, r = c :: q /\ space c) ->
  (word_of w (p ++ w1 ++ r) <-> w = w1 \/ word_of w r).
Proof.
  intros w p w1 r FP NW FW R. split.
  - intros (pre & post & E & N & F & A & B).
    (* where the word starts *)
    revert pre E A. induction p as [|x p IHp]; intros pre E A.
    + cbn [app] in E. clear FP. destruct pre as [|y pre].
      * left. cbn [app] in E. revert w N F B E. induction w1 as [|c w1 IHw]; [congruence|]. intros w N F B E. inversion FW; subst.
        destruct w as [|d w]; [congruence|]. injection E as -> E. inversion F; subst. f_equal.
        destruct w1 as [|c1 w1].
        -- destruct w as [|d1 w]; auto. cbn in E. destruct R as [->|(c & q & -> & SC)]; [discriminate|]. injection E as -> E. inversion H4; tauto.
        -- destruct w as [|d1 w].
           ++ cbn in E. destruct B as [->|(c & q & -> & SC)]; [discriminate|]. injection E as -> E. inversion H2; subst. tauto.
           ++ apply IHw; auto; discriminate.
      * (* pre nonempty: the word must lie in r *)
        right. assert (X : exists l, y :: pre = w1 ++ l).
        { destruct A as [A|(p' & c & A & SC)]; [discriminate|]. rewrite A in *. clear A y pre.
          revert p' E. clear NW. induction w1 as [|d w1 IHw]; intros p' E; [exists (p' ++ [c]); reflexivity|]. inversion FW; subst.
          destruct p' as [|e p']; cbn [app] in E.
          - injection E as -> E. tauto.
          - injection E as -> E. destruct (IHw H2 p') as (l & El); [rewrite <- E; reflexivity|]. exists l. cbn. rewrite El. reflexivity. }
        destruct X as (l & X). rewrite X, <- app_assoc in E. apply app_inv_head in E. exists l, post. split; auto. split; auto. split; auto. split; auto.
        destruct A as [A|(p' & c & A & SC)]; [discriminate|]. rewrite A in X. destruct l as [|e l] using rev_ind; auto. right. exists l, e. split; auto.
        rewrite app_assoc in X. apply app_inj_tail in X. destruct X as (_ & <-). auto.
    + inversion FP; subst. cbn [app] in E. destruct pre as [|y pre].
      * destruct w as [|c w]; [congruence|]. cbn in E. injection E as -> E. inversion F; subst. tauto.
      * injection E as -> E. apply (IHp H2 pre E). destruct A as [A|(p' & c & A & SC)]; [discriminate|].
        destruct p' as [|z p']; [injection A as _ ->; auto|]. injection A as _ A. right. eauto.
  - intros [->|(pre & post & -> & N & F & A & B)].
    + exists p, r. repeat split; auto. destruct p as [|x p] using rev_ind; auto. right. exists p, x. split; auto. apply Forall_app in FP. destruct FP as (_ & FP). inversion FP; auto.
    + exists (p ++ w1 ++ pre), post. rewrite <- !app_assoc. repeat split; auto. destruct A as [->|(p' & c & -> & SC)].
      * (* the word directly after w1: r = w ++ post starts with a non-space *)
        destruct R as [R|(c & q & R & SC)]; [destruct w; [congruence|discriminate]|]. destruct w as [|d w]; [congruence|]. injection R as -> R. inversion F; subst. tauto.
      * right. exists (p ++ w1 ++ p'), c. rewrite <- !app_assoc. auto.
Qed.
Lemma no_word : forall w p, Forall space p -> ~ word_of w p.
Proof.
  intros w p F (pre & post & E & N & FW & _). destruct w as [|c w]; [congruence|]. inversion FW; subst.
  apply H1. rewrite Forall_forall in F. apply F. apply in_or_app. right. left. reflexivity.
Qed.
Lemma words_loop_spec : forall f s w, (length s < f)%nat -> (In w (words_loop f s) <-> word_of w s).
Proof.
  induction f as [|f IH]; intros s w L; [lia|]. cbn [words_loop]. destruct (skip_blank_spec s) as (p & E & F & H).
  destruct (skip_blank s) as [|c t] eqn:SK.
  - rewrite app_nil_r in E. subst s. split; [intros []|]. intros X. elim (no_word _ _ F X).
  - destruct H as [H|(c' & t' & H & NS)]; [discriminate|]. injection H as <- <-.
    destruct (take_word (c :: t)) as [w1 r] eqn:T. pose proof (take_word_spec _ _ _ T) as (E1 & F1 & R).
    assert (NW : w1 <> []).
    { cbn in T. rewrite (proj2 (blank_false c) NS) in T. destruct (take_word t). injection T as <- _. discriminate. }
    cbn [In]. rewrite IH.
    + rewrite E, E1, (word_split w p w1 r F NW F1 R). intuition.
    + rewrite E, E1, !app_length in L. destruct w1; [congruence|]. cbn in L. lia.
Qed.
Theorem C70_words : forall s w, In w (words s) <-> word_of w s.
Proof. intros s w. apply words_loop_spec. lia. Qed.

Section Norm.
Variable norm : Z -> str -> option str.
Lemma norm_all_spec : forall dp req l,
  match norm_all norm dp req l with
  | None => req = true /\ exists w, In w l /\ norm dp w = None
  | Some r => (req = true -> forall w, In w l -> norm dp w <> None) /\ forall a, In a r <-> exists w, In w l /\ norm dp w = Some a
  end.
Proof.
  intros dp req. induction l as [|w l IH]; cbn [norm_all].
  - split; [intros _ w []|]. intros a. split; [intros []|intros (w & [] & _)].
  - destruct (norm_all norm dp req l) as [r|].
    + destruct IH as (A & B). destruct (norm dp w) as [x|] eqn:N.
      * split; [intros R y [<-|Y]; [congruence|auto]|]. intros a. cbn [In]. rewrite B. split.
        -- intros [<-|(y & Y & NY)]; [exists w; auto|exists y; auto].
        -- intros (y & [<-|Y] & NY); [left; congruence|right; exists y; auto].
      * destruct req; [split; auto; exists w; split; auto; left; reflexivity|]. split; [intros X; discriminate X|]. intros a. rewrite B. split.
        -- intros (y & Y & NY). exists y; split; [right; auto|auto].
        -- intros (y & [<-|Y] & NY); [congruence|exists y; auto].
    + destruct IH as (A & y & Y & NY). destruct (norm dp w); (split; [auto|]; exists y; split; [right; auto|auto]).
Qed.
(** the list in effect: the old addresses and every word which is an address, each once; an invalid
    word is skipped, or ends in an exception when the list is required to be valid *)
Theorem C70_list : forall out inp dp required,
  match split_addr_into norm out inp dp required with
  | Some l => NoDup l /\ (forall a, In a l <-> In a out \/ exists w, word_of w inp /\ norm dp w = Some a) /\
              (required = true -> forall w, word_of w inp -> norm dp w <> None)
  | None => required = true /\ exists w, word_of w inp /\ norm dp w = None
  end.
Proof.
  intros out inp dp req. unfold split_addr_into. pose proof (norm_all_spec dp req (words inp)) as H.
  destruct (norm_all norm dp req (words inp)) as [r|].
  - destruct H as (A & B). destruct (C50_strings_partial (out ++ r)) as (ND & S). split; auto. split.
    + intros a. rewrite (S a), in_app_iff, B. split; (intros [X|(w & W & NW)]; [auto|right; exists w; split; auto; apply C70_words; auto]).
    + intros R w W. apply A; auto. apply C70_words; auto.
  - destruct H as (A & w & W & NW). split; auto. exists w. split; auto. apply C70_words; auto.
Qed.

(** ** C69 *)
Theorem C69_port_partial : forall old v n, parse_u64 v = Some n -> n < 65536 -> parse_port old v = n.
Proof.
  intros old v n P L. unfold parse_port. rewrite P. apply Z.mod_small. split; auto.
  apply parse_u64_spec in P. destruct P as (z & _ & _ & ->). apply Z.mod_pos_bound. lia.
Qed.
Theorem C69_invalid_ignored : forall old v, parse_u64 v = None -> parse_port old v = old.
Proof. intros old v P. unfold parse_port. rewrite P. reflexivity. Qed.

(** ** C68 *)
(** an address as the configuration holds it after normalisation: text without white space which
    reads back as itself, with this default port *)
Definition normal (dp : Z) (a : str) : Prop := a <> [] /\ Forall (fun c => ~ space c) a /\ norm dp a = Some a.
Lemma join_words : forall l, Forall (fun a => a <> [] /\ Forall (fun c => ~ space c) a) l -> forall w, word_of w (join_addr l) <-> In w l.
Proof.
  induction l as [|x l IH]; intros F w; [split; [|intros []]; intros X; elim (no_word w []); auto|].
  inversion F as [|? ? (NX & FX) F']; subst. destruct l as [|y l].
  - cbn [join_addr]. replace x with ([] ++ x ++ []) at 1 by (cbn; apply app_nil_r).
    rewrite (word_split w [] x [] (Forall_nil _) NX FX (or_introl eq_refl)). cbn [In]. split; intros [X|X]; auto; [|].
    + elim (no_word w []); auto.
    + destruct X.
  - change (join_addr (x :: y :: l)) with ([] ++ x ++ 32 :: join_addr (y :: l)).
    rewrite (word_split w [] x (32 :: join_addr (y :: l)) (Forall_nil _) NX FX); [|right; exists 32, (join_addr (y :: l)); split; auto; left; reflexivity].
    specialize (IH F' w).
    assert (X : word_of w (32 :: join_addr (y :: l)) <-> word_of w (join_addr (y :: l))).
    { generalize (join_addr (y :: l)). clear. intros s. split.
      - intros (pre & post & E & N & F & A & B). destruct pre as [|c pre].
        + destruct w as [|d w]; [congruence|]. cbn in E. inversion E; subst. inversion F; subst. elim H1. left. reflexivity.
        + cbn in E. inversion E; subst. exists pre, post. repeat split; auto. destruct A as [A|(p & c & A & SC)]; [discriminate|].
          destruct p as [|z p]; [injection A as _ ->; auto|]. injection A as _ ->. right. eauto.
      - intros (pre & post & E & N & F & A & B). exists (32 :: pre), post. rewrite E. repeat split; auto. right.
        destruct A as [->|(p & c & -> & SC)]; [exists [], 32; split; auto; left; reflexivity|exists (32 :: p), c; auto]. }
    rewrite X, IH. cbn [In]. intuition.
Qed.
Lemma list_back : forall dp req l, Forall (normal dp) l -> exists l', split_addr_into norm [] (join_addr l) dp req = Some l' /\ same_set l' l /\ NoDup l'.
Proof.
  intros dp req l F. pose proof (C70_list [] (join_addr l) dp req) as H.
  assert (W : forall w, word_of w (join_addr l) <-> In w l) by (apply join_words; eapply Forall_impl; [|exact F]; intros a (A & B & _); auto).
  rewrite Forall_forall in F.
  destruct (split_addr_into norm [] (join_addr l) dp req) as [l'|].
  - destruct H as (ND & A & B). exists l'. split; auto. split; auto. intros a. rewrite A. split.
    + intros [[]|(w & X & N)]. apply W in X. destruct (F w X) as (_ & _ & N'). congruence.
    + intros X. right. exists a. split; [apply W; auto|apply (F a X)].
  - destruct H as (_ & w & X & N). apply W in X. destruct (F w X) as (_ & _ & N'). congruence.
Qed.
Lemma port_back : forall old p, 0 <= p < 65536 -> parse_port old (print_int p) = p.
Proof. intros old p R. apply C69_port_partial; [|lia]. apply C44_parse_print_unsigned. lia. Qed.
Lemma bool_back : forall old (b : bool), parse_yesno old (if b then t_yes else t_no) = b.
Proof. intros old []; reflexivity. Qed.
(** a server configuration written to definitions, over any others, and read into a new one: the same
    but for the order of the addresses *)
Theorem C68_server : forall c d,
  0 <= s_tcp c < 65536 -> 0 <= s_udp c < 65536 ->
  Forall (normal (s_tcp c)) (s_intf c) -> Forall (normal 0) (s_ign c) -> Forall (normal (s_udp c)) (s_dest c) ->
  exists c', server_from_defs norm (server_update_defs c d) new_server_config = Some c' /\
    s_tcp c' = s_tcp c /\ s_udp c' = s_udp c /\ s_auto c' = s_auto c /\
    same_set (s_intf c') (s_intf c) /\ same_set (s_ign c') (s_ign c) /\ same_set (s_dest c') (s_dest c).
Proof.
  intros c d T U FI FG FD. unfold server_from_defs. cbn [pick server_update_defs with_ with_list new_server_config s_tcp s_udp s_intf s_ign s_dest s_auto].
  rewrite !port_back by auto.
  destruct (list_back _ true _ FI) as (l1 & -> & S1 & _). destruct (list_back _ true _ FG) as (l2 & -> & S2 & _).
  destruct (list_back _ false _ FD) as (l3 & -> & S3 & _). eexists. split; [reflexivity|]. cbn [s_tcp s_udp s_intf s_ign s_dest s_auto].
  rewrite bool_back. auto 10.
Qed.
Theorem C68_client : forall c d,
  0 <= c_tcp c < 65536 -> 0 < c_udp c < 65536 ->
  Forall (normal (c_udp c)) (c_addr c) -> Forall (normal 0) (c_intf c) -> Forall (normal (c_tcp c)) (c_names c) ->
  exists c', client_from_defs norm (client_update_defs c d) new_client_config = Some c' /\
    c_tcp c' = c_tcp c /\ c_udp c' = c_udp c /\ c_auto c' = c_auto c /\
    same_set (c_addr c') (c_addr c) /\ same_set (c_intf c') (c_intf c) /\ same_set (c_names c') (c_names c).
Proof.
  intros c d T U FA FI FN. unfold client_from_defs. cbn [pick client_update_defs with_ with_list new_client_config c_tcp c_udp c_addr c_intf c_names c_auto is_nil negb].
  rewrite !port_back by lia. replace (c_udp c =? 0) with false by (symmetry; apply Z.eqb_neq; lia). rewrite andb_false_r.
  destruct (list_back _ false _ FA) as (l1 & -> & S1 & _). destruct (list_back _ false _ FN) as (l2 & -> & S2 & _).
  destruct (list_back _ false _ FI) as (l3 & -> & S3 & _). eexists. split; [reflexivity|]. cbn [c_tcp c_udp c_addr c_intf c_names c_auto].
  rewrite bool_back. auto 10.
Qed.
(** definitions take precedence in the order documented: the server's own name first *)
Theorem C68_precedence : forall d c c', server_from_defs norm d c = Some c' ->
  s_tcp c' = match d S_port, d P_port with Some v, _ => parse_port (s_tcp c) v | None, Some v => parse_port (s_tcp c) v | None, None => s_tcp c end /\
  s_udp c' = match d S_bport, d P_bport with Some v, _ => parse_port (s_udp c) v | None, Some v => parse_port (s_udp c) v | None, None => s_udp c end.
Proof.
  intros d c c'. unfold server_from_defs. cbn [pick]. intros H.
  repeat match type of H with match ?x with _ => _ end = _ => destruct x; [|discriminate] end. injection H as <-. cbn [s_tcp s_udp].
  split; [destruct (d S_port), (d P_port)|destruct (d S_bport), (d P_bport)]; reflexivity.
Qed.
End Norm.
(** a port number too large is not refused, but another one is used: 70000 gives 4464 *)
Theorem C69_refuted : exists v n, parse_u64 v = Some n /\ parse_port 5075 v <> n /\ parse_port 5075 v <> 5075.
Proof. exists [55; 48; 48; 48; 48], 70000. vm_compute. repeat split; discriminate. Qed.
(** the order of the addresses is lost *)
Theorem C68_order_refuted : exists norm c c',
  Forall (normal norm (s_udp c)) (s_dest c) /\ s_tcp c = 5075 /\ s_udp c = 5076 /\ s_intf c = [] /\ s_ign c = [] /\
  server_from_defs norm (server_update_defs c (fun _ => None)) new_server_config = Some c' /\ s_dest c' <> s_dest c.
Proof.
  exists (fun _ a => Some a), {| s_tcp := 5075; s_udp := 5076; s_intf := []; s_ign := []; s_dest := [[50]; [49]]; s_auto := true |},
    {| s_tcp := 5075; s_udp := 5076; s_intf := []; s_ign := []; s_dest := [[49]; [50]]; s_auto := true |}.
  cbn [s_udp s_tcp s_intf s_ign s_dest]. split.
  - repeat constructor; try discriminate; unfold space; lia.
  - repeat split; try reflexivity; try discriminate.
Qed.
Example C70_example :
  let norm (dp : Z) (w : str) := if str_eqb w [88] then None else Some (w ++ [58; dp]) in
  split_addr_into norm [[65]] [32; 66; 9; 88; 10; 67; 66; 32; 66] 7 false = Some [[65]; [66; 58; 7]; [67; 66; 58; 7]] /\
  split_addr_into norm [[65]] [32; 66; 9; 88; 10; 67; 66; 32; 66] 7 true = None.
Proof. vm_compute. auto. Qed.
Example C68_nonvacuous :
  exists norm c, 0 <= s_tcp c < 65536 /\ 0 <= s_udp c < 65536 /\ s_dest c = [[50]; [49; 48]] /\
  Forall (normal norm (s_tcp c)) (s_intf c) /\ Forall (normal norm 0) (s_ign c) /\ Forall (normal norm (s_udp c)) (s_dest c).
Proof.
  exists (fun _ a => Some a), {| s_tcp := 1; s_udp := 2; s_intf := [[51]]; s_ign := []; s_dest := [[50]; [49; 48]]; s_auto := false |}.
  cbn [s_tcp s_udp s_intf s_ign s_dest]. repeat split; try lia; repeat constructor; try discriminate; unfold space; lia.
Qed.

Print Assumptions C49_usable.
Print Assumptions C49_kept.
Print Assumptions C49_others.
Print Assumptions C49_from_text.
Print Assumptions C49_scaled.
Print Assumptions C49_echo.
Print Assumptions C50_endpoints.
Print Assumptions C50_strings_partial.
Print Assumptions C50_strings_refuted.
Print Assumptions C70_words.
Print Assumptions C70_list.
Print Assumptions C69_port_partial.
Print Assumptions C69_invalid_ignored.
Print Assumptions C68_server.
Print Assumptions C68_client.
Print Assumptions C68_precedence.
Print Assumptions C69_refuted.
Print Assumptions C68_order_refuted.
