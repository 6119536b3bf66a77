(** Structure of node arrays: a Struct is followed by exactly its descendants,
    so descendants are index ranges. *)
From Coq Require Import ZArith List Bool Lia ZifyBool ZifyNat Relation_Operators.
From Verif Require Import Base BaseProofs WireModel TypeModel TypeSpec TypeProofs TypeNameProofs ValueModel ValueSpec.
Import ListNotations.
Local Open Scope Z_scope.

Inductive lay : list fdesc -> Prop :=
| lay_leaf d : f_code d <> tc_Struct -> f_size d = 1%nat -> lay [d]
| lay_struct d kids : f_code d = tc_Struct -> f_size d = S (length kids) -> lays 1 (f_iter d) kids -> lay (d :: kids)
with lays : nat -> list (str * nat) -> list fdesc -> Prop :=
| lays_nil off : lays off [] []
| lays_cons off n it sub rest : lay sub -> f_parent (first_node sub) = off ->
    lays (off + length sub) it rest -> lays off ((n, off) :: it) (sub ++ rest).
Scheme lay_ind2 := Induction for lay Sort Prop with lays_ind2 := Induction for lays Sort Prop.
Combined Scheme lay_mut from lay_ind2, lays_ind2.

Lemma set_parent_fields p l : l <> [] -> exists d r, set_parent p l = d :: r /\ f_parent d = p /\
  exists d0, l = d0 :: r /\ f_code d = f_code d0 /\ f_size d = f_size d0 /\ f_iter d = f_iter d0 /\ f_members d = f_members d0
   /\ f_lookup d = f_lookup d0.
Proof.
  destruct l as [|d0 r]; [easy|]. intros _. cbn [set_parent]. exists (FD (f_id d0) (f_lookup d0) (f_iter d0) p (f_members d0) (f_code d0)), r.
  repeat split. exists d0. repeat split.
Qed.
Lemma lay_nonnil l : lay l -> l <> [].
Proof. now inversion 1. Qed.
Lemma lay_set_parent p l : lay l -> lay (set_parent p l).
Proof.
  inversion 1; subst; cbn [set_parent].
  - apply lay_leaf; assumption.
  - apply lay_struct; assumption.
Qed.

Lemma NoDup_app_l {A} (a b : list A) : NoDup (a ++ b) -> NoDup a.
Proof. induction a as [|x a IH]; [constructor|]. cbn [app]. inversion 1; subst. constructor; [|auto]. intro I. apply H2. apply in_or_app. now left. Qed.
Lemma NoDup_app_r {A} (a b : list A) : NoDup (a ++ b) -> NoDup b.
Proof. induction a as [|x a IH]; [auto|]. cbn [app]. inversion 1; subst. auto. Qed.
Lemma NoDup_map_back {A B} (f : A -> B) l : NoDup (map f l) -> NoDup l.
Proof. induction l as [|x l IH]; [constructor|]. cbn [map]. inversion 1; subst. constructor; [|auto]. intro I. apply H2. now apply in_map. Qed.

Lemma plist_from_sub cs : forall off, NoDup (keys (plist_from off cs)) -> Forall (fun c => NoDup (keys (plist c))) cs.
Proof.
  induction cs as [|c cs IH]; intros off H; [constructor|]. cbn [plist_from keys map fst] in H. rewrite map_app in H.
  inversion H; subst. constructor.
  - apply NoDup_app_l in H3. rewrite map_map in H3. cbn [fst] in H3.
    rewrite <- (map_map fst (fun x => m_name c ++ dot :: x)) in H3. now apply NoDup_map_back in H3.
  - apply NoDup_app_r in H3. eapply IH. exact H3.
Qed.

Lemma lays_kids cs : Forall (fun c => lay (flatten c)) cs -> forall off, lays off (iter_from off cs) (kids_from true off cs).
Proof.
  induction 1 as [|c cs H _ IH]; intro off; cbn [iter_from kids_from]; [constructor|].
  replace (off + length (flatten c))%nat with (off + length (set_parent off (flatten c)))%nat by now rewrite set_parent_length.
  constructor.
  - now apply lay_set_parent.
  - destruct (set_parent_fields off (flatten c) (lay_nonnil _ H)) as (d & r & -> & P & _). exact P.
  - apply IH.
Qed.

Lemma lay_flatten m : NoDup (keys (plist m)) -> lay (flatten m).
Proof.
  induction m as [code name id cs IH] using member_ind'. intro N. rewrite plist_eq in N.
  destruct (Z.eqb_spec code tc_Struct) as [->|NS].
  - pose proof (struct_assert (Mem tc_Struct name id cs) eq_refl) as S. rewrite plist_eq in S.
    change (tc_Struct =? tc_Struct) with true in S. cbv iota in S. apply proj2 in S. specialize (S N).
    rewrite flatten_eq in *. change (is_array_of_compound tc_Struct) with false in *. cbv iota in *.
    rewrite flatten_plain_eq in *. cbv zeta in *. change (tc_Struct =? tc_Struct) with true in *. cbv iota in *.
    cbn [hd length] in S. apply lay_struct; [reflexivity|congruence|]. cbn [f_iter].
    change (base_of tc_Struct) with 1%nat. apply lays_kids.
    apply plist_from_sub in N. rewrite Forall_forall in *. auto.
  - rewrite flatten_eq. destruct (is_array_of_compound code) eqn:A.
    + apply lay_leaf; [assumption|]. unfold f_size. cbn [f_members f_lookup]. destruct (is_nil _); reflexivity.
    + pose proof (plain_assert code id cs NS) as S. rewrite flatten_plain_eq in *. cbv zeta in *.
      destruct (Z.eqb_spec code tc_Struct); [easy|]. apply lay_leaf; [assumption|]. cbn [hd length] in S. congruence.
Qed.

(** ** ranges *)
Definition subtree (i : nat) (nodes : list fdesc) : list fdesc :=
  firstn (f_size (first_node (skipn i nodes))) (skipn i nodes).

Lemma skipn_nth {A} i (l : list A) d : nth_error l i = Some d -> exists r, skipn i l = d :: r.
Proof.
  revert l. induction i as [|i IH]; intros [|x l]; cbn [nth_error skipn]; try discriminate.
  - intro H. inversion H. eauto.
  - apply IH.
Qed.
Lemma lay_length l : lay l -> f_size (first_node l) = length l.
Proof. inversion 1; subst; cbn; auto. Qed.

Lemma lay_subtrees :
  (forall l, lay l -> forall i d, nth_error l i = Some d -> (i + f_size d <= length l)%nat /\ lay (subtree i l)) /\
  (forall off it l, lays off it l -> forall i d, nth_error l i = Some d -> (i + f_size d <= length l)%nat /\ lay (subtree i l)).
Proof.
  apply lay_mut.
  - intros d C S i x H. destruct i as [|[|i]]; try discriminate. cbn in H. inversion H; subst. split; [cbn [length]; lia|].
    unfold subtree. cbn [skipn first_node hd]. rewrite S. now apply lay_leaf.
  - intros d kids C S L IH i x H. destruct i as [|i].
    + cbn in H. inversion H; subst. split; [cbn [length]; lia|]. unfold subtree. cbn [skipn]. cbn [first_node hd].
      rewrite S. cbn [firstn]. rewrite firstn_all. now apply lay_struct.
    + cbn [nth_error] in H. destruct (IH i x H) as [A B]. split; [cbn [length]; lia|]. exact B.
  - intros off i d H. destruct i; discriminate.
  - intros off n it sub rest L IH P LS IHS i d H.
    destruct (Nat.lt_ge_cases i (length sub)) as [G|G].
    + rewrite nth_error_app1 in H by exact G. destruct (IH i d H) as [A B]. split; [rewrite app_length; lia|].
      unfold subtree in *. destruct (skipn_nth i sub d H) as [r E]. rewrite E in B. cbn [first_node hd] in B.
      rewrite skipn_app, E. cbn [app first_node hd].
      replace (i - length sub)%nat with 0%nat by lia. cbn [skipn].
      assert (length (d :: r) = length sub - i)%nat as LE by (rewrite <- E, skipn_length; reflexivity).
      change (d :: r ++ rest) with ((d :: r) ++ rest). rewrite firstn_app.
      replace (f_size d - length (d :: r))%nat with 0%nat by lia. cbn [firstn]. rewrite app_nil_r. exact B.
    + rewrite nth_error_app2 in H by exact G. destruct (IHS _ d H) as [A B]. split; [rewrite app_length; lia|].
      unfold subtree in *. rewrite skipn_app, skipn_all2 by lia. exact B.
Qed.
Lemma lay_range l i d : lay l -> nth_error l i = Some d -> (i + f_size d <= length l)%nat.
Proof. intros L H. now apply (proj1 lay_subtrees l L i d H). Qed.
Lemma lay_sub l i d : lay l -> nth_error l i = Some d -> lay (subtree i l).
Proof. intros L H. now apply (proj1 lay_subtrees l L i d H). Qed.

Lemma nth_error_firstn_lt {A} (l : list A) n j : (j < n)%nat -> nth_error (firstn n l) j = nth_error l j.
Proof. revert l j. induction n as [|n IH]; intros [|x l] [|j] H; try lia; cbn; auto. apply IH. lia. Qed.
Lemma nth_error_skipn_add {A} (l : list A) n j : nth_error (skipn n l) j = nth_error l (n + j).
Proof. revert l. induction n as [|n IH]; intros [|x l]; cbn; auto. now destruct j. Qed.
Lemma subtree_nth l i d j : nth_error l i = Some d -> (j < f_size d)%nat -> nth_error (subtree i l) j = nth_error l (i + j).
Proof.
  intros H J. unfold subtree. destruct (skipn_nth i l d H) as [r E].
  replace (first_node (skipn i l)) with d by now rewrite E.
  rewrite nth_error_firstn_lt by exact J. apply nth_error_skipn_add.
Qed.
Lemma f_size_pos d : (1 <= f_size d)%nat.
Proof. unfold f_size. lia. Qed.
Lemma subtree_first l i d : nth_error l i = Some d -> first_node (subtree i l) = d.
Proof.
  intro H. pose proof (subtree_nth l i d 0 H (f_size_pos d)) as E. rewrite Nat.add_0_r, H in E.
  destruct (subtree i l); cbn in E; [discriminate|]. now inversion E.
Qed.
(** ranges are nested or disjoint *)
Lemma lay_nested l i j di dj : lay l -> nth_error l i = Some di -> nth_error l j = Some dj ->
  (i <= j < i + f_size di)%nat -> (j + f_size dj <= i + f_size di)%nat.
Proof.
  intros L HI HJ R. pose proof (lay_sub l i di L HI) as S.
  pose proof (lay_range (subtree i l) (j - i) dj S) as K.
  rewrite (subtree_nth l i di) in K by (auto; lia). replace (i + (j - i))%nat with j in K by lia. specialize (K HJ).
  rewrite <- (lay_length _ S), (subtree_first l i di HI) in K. lia.
Qed.

(** every element of a member list starts a subtree of that list; the list is
    covered by them *)
Lemma lays_in off it l : lays off it l -> forall n k, In (n, k) it ->
  (off <= k)%nat /\ exists d, nth_error l (k - off) = Some d /\ f_parent d = k.
Proof.
  induction 1 as [|off n it sub rest L P LS IH]; intros n' k I; [easy|]. destruct I as [I|I].
  - injection I as <- <-. split; [lia|]. replace (off - off)%nat with 0%nat by lia.
    pose proof (lay_nonnil _ L). destruct sub as [|d sub]; [easy|]. exists d. split; [reflexivity|exact P].
  - destruct (IH n' k I) as (G & d & H1 & H2). split; [lia|]. exists d. split; [|exact H2].
    rewrite nth_error_app2 by lia. rewrite <- H1. f_equal. lia.
Qed.
Lemma lays_cover off it l : lays off it l -> forall j, (j < length l)%nat ->
  exists n k d, In (n, k) it /\ nth_error l (k - off) = Some d /\ (off <= k <= off + j)%nat /\ (off + j < k + f_size d)%nat.
Proof.
  induction 1 as [|off n it sub rest L P LS IH]; intros j J; [cbn in J; lia|].
  rewrite app_length in J. destruct (Nat.lt_ge_cases j (length sub)) as [G|G].
  - exists n, off. pose proof (lay_nonnil _ L). destruct sub as [|d sub]; [easy|]. exists d.
    split; [now left|]. replace (off - off)%nat with 0%nat by lia. split; [reflexivity|]. split; [lia|].
    pose proof (lay_length _ L) as K. cbn [first_node hd] in K. lia.
  - destruct (IH (j - length sub)%nat ltac:(lia)) as (n' & k & d & I & H & R1 & R2).
    exists n', k, d. split; [now right|]. split; [|lia].
    rewrite nth_error_app2 by lia. rewrite <- H. f_equal. lia.
Qed.
Lemma lays_starts off it l : lays off it l -> forall n k n' k' d', In (n, k) it -> In (n', k') it ->
  nth_error l (k' - off) = Some d' -> (k' < k)%nat -> (k' + f_size d' <= k)%nat.
Proof.
  induction 1 as [|off n it sub rest L P LS IH]; intros a k b k' d' I I' H G; [easy|].
  destruct I as [I|I], I' as [I'|I'].
  - injection I as <- <-. injection I' as <- <-. lia.
  - injection I as <- <-. apply (lays_in _ _ _ LS) in I'. lia.
  - injection I' as <- <-. replace (off - off)%nat with 0%nat in H by lia.
    pose proof (lay_nonnil _ L). destruct sub as [|d sub]; [easy|]. cbn in H. injection H as <-.
    pose proof (lay_length _ L) as K. cbn [first_node hd] in K. apply (lays_in _ _ _ LS) in I. lia.
  - eapply IH; eauto. apply (lays_in _ _ _ LS) in I' as [R _]. rewrite nth_error_app2 in H by lia.
    rewrite <- H. f_equal. lia.
Qed.

(** node [i]'s members *)
Lemma lay_members l i d : lay l -> nth_error l i = Some d -> f_code d = tc_Struct ->
  exists kids, lays 1 (f_iter d) kids /\ f_size d = S (length kids) /\
    forall j, (j < length kids)%nat -> nth_error kids j = nth_error l (i + 1 + j).
Proof.
  intros L H C. pose proof (lay_sub l i d L H) as S.
  pose proof (subtree_nth l i d 0 H ltac:(pose proof (f_size_pos d); lia)) as E0.
  rewrite Nat.add_0_r, H in E0. inversion S as [x X Y EQ|x kids X Y Z EQ]; subst.
  - rewrite <- EQ in E0. cbn in E0. inversion E0; subst. contradiction.
  - rewrite <- EQ in E0. cbn in E0. inversion E0; subst. exists kids. split; [exact Z|]. split; [exact Y|].
    intros j J. pose proof (subtree_nth l i d (1 + j) H ltac:(lia)) as K. rewrite <- EQ in K. cbn [Nat.add nth_error] in K.
    rewrite K. f_equal. lia.
Qed.

Lemma member_range l i j : lay l -> is_member l i j ->
  exists d dj, nth_error l i = Some d /\ nth_error l j = Some dj /\ (i < j < i + f_size d)%nat /\ f_parent dj = (j - i)%nat.
Proof.
  intros L (d & name & k & H & C & I & ->). destruct (lay_members l i d L H C) as (kids & K1 & K2 & K3).
  destruct (lays_in _ _ _ K1 _ _ I) as (G & dj & E & P).
  assert (k - 1 < length kids)%nat by (apply nth_error_Some; congruence).
  exists d, dj. split; [exact H|]. rewrite K3 in E by lia. split; [rewrite <- E; f_equal; lia|]. split; lia.
Qed.
Lemma inside_range l i j : lay l -> is_inside l i j ->
  exists d, nth_error l i = Some d /\ (i < j < i + f_size d)%nat.
Proof.
  intros L H. induction H as [x y H|x y z H1 IH1 H2 IH2].
  - destruct (member_range l x y L H) as (d & dj & A & B & R & P). eauto.
  - destruct IH1 as (d1 & A & R1), IH2 as (d2 & B & R2). exists d1. split; [exact A|].
    pose proof (lay_nested l x y d1 d2 L A B ltac:(lia)). lia.
Qed.

(** the parent link *)
Lemma lay_parent l j dj : lay l -> nth_error l j = Some dj -> (1 <= j)%nat ->
  exists p, is_member l p j /\ (p + f_parent dj = j)%nat /\
    forall q dq, nth_error l q = Some dq -> (q < j < q + f_size dq)%nat -> (q <= p)%nat.
Proof.
  intros L HJ J.
  assert (B : exists q dq, nth_error l q = Some dq /\ (q < j < q + f_size dq)%nat).
  { pose proof (lay_length l L) as E. pose proof (lay_nonnil l L). destruct l as [|d0 l]; [easy|].
    exists 0%nat, d0. split; [reflexivity|]. cbn [first_node hd] in E. rewrite E.
    assert (j < length (d0 :: l))%nat by (apply nth_error_Some; congruence). lia. }
  (* the innermost such q *)
  assert (M : exists q dq, nth_error l q = Some dq /\ (q < j < q + f_size dq)%nat /\
    forall q' dq', nth_error l q' = Some dq' -> (q' < j < q' + f_size dq')%nat -> (q' <= q)%nat).
  { destruct B as (q & dq & Q1 & Q2).
    remember (j - q)%nat as n eqn:N. revert q dq Q1 Q2 N. induction n as [n IH] using lt_wf_ind. intros.
    destruct (existsb (fun x => match nth_error l x with Some dx => (q <? x)%nat && (x <? j)%nat && (j <? x + f_size dx)%nat | None => false end) (seq 0 j)) eqn:X.
    - apply existsb_exists in X as (x & _ & X). destruct (nth_error l x) as [dx|] eqn:EX; [|discriminate].
      apply (IH (j - x)%nat ltac:(lia) x dx); auto; lia.
    - exists q, dq. split; [exact Q1|]. split; [exact Q2|]. intros q' dq' A R.
      destruct (Nat.le_gt_cases q' q) as [G|G]; [exact G|]. exfalso.
      assert (T : existsb (fun x => match nth_error l x with Some dx => (q <? x)%nat && (x <? j)%nat && (j <? x + f_size dx)%nat | None => false end) (seq 0 j) = true).
      { apply existsb_exists. exists q'. split; [apply in_seq; lia|]. rewrite A. lia. }
      congruence. }
  destruct M as (q & dq & Q1 & Q2 & Q3). exists q.
  assert (C : f_code dq = tc_Struct).
  { pose proof (lay_sub l q dq L Q1) as S. pose proof (subtree_nth l q dq 0 Q1 ltac:(pose proof (f_size_pos dq); lia)) as E0.
    rewrite Nat.add_0_r, Q1 in E0. inversion S as [x X Y EQ|x kids X Y Z EQ]; subst; rewrite <- EQ in E0; cbn in E0; inversion E0; subst; auto. lia. }
  destruct (lay_members l q dq L Q1 C) as (kids & K1 & K2 & K3).
  destruct (lays_cover _ _ _ K1 (j - q - 1)%nat ltac:(lia)) as (n & k & d & I & E & R1 & R2).
  assert (EJ : nth_error l (q + k) = Some d).
  { rewrite K3 in E by (apply nth_error_Some; congruence). rewrite <- E. f_equal. lia. }
  assert (k = j - q)%nat.
  { destruct (Nat.eq_dec k (j - q)) as [X|X]; [exact X|]. exfalso.
    pose proof (Q3 (q + k)%nat d EJ ltac:(lia)). lia. }
  subst k. replace (q + (j - q))%nat with j in EJ by lia. rewrite HJ in EJ. inversion EJ; subst d.
  split.
  - exists dq, n, (j - q)%nat. repeat split; auto. lia.
  - destruct (lays_in _ _ _ K1 _ _ I) as (_ & d & E' & P).
    rewrite E in E'. inversion E'; subst. split; [lia|]. exact Q3.
Qed.

Lemma range_inside l i j d : lay l -> nth_error l i = Some d -> (i < j < i + f_size d)%nat -> is_inside l i j.
Proof.
  intros L H. induction j as [j IH] using lt_wf_ind. intro R.
  pose proof (lay_range l i d L H) as B.
  destruct (nth_error l j) as [dj|] eqn:HJ; [|apply nth_error_None in HJ; lia].
  destruct (lay_parent l j dj L HJ ltac:(lia)) as (p & M & P & Q).
  specialize (Q i d H R). destruct (Nat.eq_dec i p) as [->|N].
  - now apply t_step.
  - destruct (member_range l p j L M) as (dp & dj' & A1 & A2 & A3 & _).
    apply t_trans with p; [apply IH; lia|now apply t_step].
Qed.
Lemma inside_iff l i j d : lay l -> nth_error l i = Some d -> (is_inside l i j <-> (i < j < i + f_size d)%nat).
Proof.
  intros L H. split.
  - intro I. destruct (inside_range l i j L I) as (d' & H' & R). congruence.
  - now apply range_inside.
Qed.
