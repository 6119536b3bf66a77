(** equalType *)
From Coq Require Import ZArith List Bool Lia ZifyBool ZifyNat.
From Verif Require Import Base BaseProofs WireModel WireSpec TypeModel TypeSpec TypeProofs TypeNameProofs.
Import ListNotations.
Local Open Scope Z_scope.

Definition eq_maps (rec : list fdesc -> list fdesc -> option bool) (isu : bool) (mx my : list fdesc) :=
  fix maps (l1 l2 : list (str * nat)) : option bool :=
    match l1, l2 with
    | [], _ => Some true
    | _ :: _, [] => None
    | (k1, i1) :: l1', (k2, i2) :: l2' =>
        if negb (str_eqb k1 k2) then Some false
        else if negb (Nat.eqb i1 i2) then Some false
        else if isu
        then match rec (skipn i1 mx) (skipn i2 my) with
             | Some true => maps l1' l2'
             | r => r
             end
        else maps l1' l2'
    end.
Definition eq_node (rec : list fdesc -> list fdesc -> option bool) (x y : fdesc) : option bool :=
  if is_array_of_compound (f_code x) then rec (f_members x) (f_members y)
  else if (f_code x =? tc_Struct) || (f_code x =? tc_Union)
  then eq_maps rec (f_code x =? tc_Union) (f_members x) (f_members y) (f_lookup x) (f_lookup y)
  else Some true.
Definition eq_nodes (rec : list fdesc -> list fdesc -> option bool) :=
  fix nodes (n : nat) (a b : list fdesc) : option bool :=
    match n with
    | O => Some true
    | S n' =>
        match a, b with
        | x :: a', y :: b' =>
            if negb (f_code x =? f_code y) then Some false
            else let here := eq_node rec x y in
                 match here with
                 | Some true => nodes n' a' b'
                 | r => r
                 end
        | _, _ => None
        end
    end.
Lemma fd_equal_S f da a db b : fd_equal (S f) (da :: a) (db :: b) =
  if negb (Nat.eqb (f_size da) (f_size db)) then Some false
  else eq_nodes (fd_equal f) (f_size da) (da :: a) (db :: b).
Proof. reflexivity. Qed.

Lemma eq_maps_same rec mx my l : eq_maps rec false mx my l l = Some true.
Proof.
  induction l as [|[k i] l IH]; cbn [eq_maps]; [reflexivity|].
  rewrite str_eqb_refl, Nat.eqb_refl. cbn [negb]. exact IH.
Qed.
Lemma eq_maps_exact rec mx my : forall l l', length l = length l' ->
  exists r, eq_maps rec false mx my l l' = Some r /\ (r = true <-> l = l').
Proof.
  induction l as [|[k i] l IH]; intros [|[k' i'] l'] L; cbn [length] in L; try discriminate; cbn [eq_maps].
  - exists true. tauto.
  - destruct (str_eqb k k') eqn:E1; cbn [negb].
    + apply str_eqb_eq in E1. subst k'. destruct (Nat.eqb_spec i i') as [->|N]; cbn [negb].
      * destruct (IH l' ltac:(lia)) as (r & R1 & R2). exists r. split; [exact R1|]. rewrite R2. split; congruence.
      * exists false. split; [reflexivity|]. split; [discriminate|congruence].
    + apply str_eqb_neq in E1. exists false. split; [reflexivity|]. split; [discriminate|congruence].
Qed.

(** ** consequences of equal shape *)
Lemma same_shape_inv a b : same_shape a b -> m_code a = m_code b /\
  Forall2 (fun x y => m_name x = m_name y /\ same_shape x y) (m_children a) (m_children b).
Proof. inversion 1; auto. Qed.
Lemma same_shape_ind2 (P : member -> member -> Prop) :
  (forall c1 n1 i1 cs1 c2 n2 i2 cs2, c1 = c2 ->
     Forall2 (fun x y => m_name x = m_name y /\ same_shape x y /\ P x y) cs1 cs2 -> P (Mem c1 n1 i1 cs1) (Mem c2 n2 i2 cs2)) ->
  forall a b, same_shape a b -> P a b.
Proof.
  intro H. induction a as [c1 n1 i1 cs1 IH] using member_ind'. intros [c2 n2 i2 cs2] S.
  apply same_shape_inv in S. cbn [m_code m_children] in S. destruct S as [E F]. apply H; [exact E|].
  clear -IH F. revert cs2 F. induction IH as [|x l Hx _ IHl]; intros cs2 F; inversion F; subst; constructor; auto.
  destruct H1. auto.
Qed.

Lemma shape_length a b : same_shape a b -> length (flatten a) = length (flatten b).
Proof.
  revert a b. apply same_shape_ind2. intros c n1 i1 cs1 c2 n2 i2 cs2 <- F. rewrite !flatten_eq.
  destruct (is_array_of_compound c); [reflexivity|]. rewrite !flatten_plain_eq. cbv zeta.
  destruct (c =? tc_Struct); [|reflexivity]. cbn [length]. f_equal. generalize 1%nat.
  induction F as [|x y l1 l2 (_ & _ & L) F IH]; intro off; [reflexivity|].
  cbn [kids_from]. rewrite !app_length, !set_parent_length, L, IH. reflexivity.
Qed.
Lemma shape_plist a b : same_shape a b -> plist a = plist b.
Proof.
  revert a b. apply same_shape_ind2. intros c n1 i1 cs1 c2 n2 i2 cs2 <- F. rewrite !plist_eq.
  destruct (c =? tc_Struct); [|reflexivity]. generalize 1%nat.
  induction F as [|x y l1 l2 (N & S & L) F IH]; intro off; [reflexivity|].
  cbn [plist_from]. rewrite L, N, (shape_length _ _ S), IH. reflexivity.
Qed.
Lemma shape_lookup a b : same_shape a b -> lookup_of a = lookup_of b.
Proof.
  revert a b. apply same_shape_ind2. intros c n1 i1 cs1 c2 n2 i2 cs2 <- F.
  unfold lookup_of at 1 2. rewrite !flatten_eq. destruct (is_array_of_compound c); [reflexivity|].
  rewrite !flatten_plain_eq. cbv zeta.
  assert (G : forall st off lk, look_from st off cs1 lk = look_from st off cs2 lk).
  { intro st. induction F as [|x y l1 l2 (N & S & L) F IH]; intros off lk; [reflexivity|].
    cbn [look_from]. rewrite (shape_length _ _ S), IH. f_equal. unfold look_child.
    rewrite !flatten_hd_code. destruct (same_shape_inv _ _ S) as [-> _]. rewrite N.
    destruct (_ && _); [|reflexivity]. fold (lookup_of x) (lookup_of y). now rewrite L. }
  destruct (c =? tc_Struct); cbn [hd f_lookup]; apply G.
Qed.

(** ** good types *)
Lemma good_children code name id cs : good_type (Mem code name id cs) -> Forall good_type cs.
Proof.
  intros (D & N & A). apply distinct_children in N. destruct N as [_ N]. apply all_names_children in A.
  destruct (describable_inv _ _ _ _ D) as [(M & W & Z & F)|(M & LF & -> & ->)]; [|constructor].
  rewrite Forall_forall in *. intros c I. destruct (F c I), (A c I). split; [assumption|]. split; auto.
Qed.
Lemma good_size m : good_type m -> f_size (hd (fd_new tc_Null) (flatten m)) = length (flatten m).
Proof.
  intros (D & N & A). destruct (Z.eq_dec (m_code m) tc_Struct) as [E|E].
  - symmetry. apply struct_assert; [exact E|]. now apply plist_NoDup.
  - destruct m as [code name id cs]. cbn [m_code] in E. rewrite flatten_eq. destruct (is_array_of_compound code) eqn:AC.
    + cbn [hd length]. unfold f_size. cbn [f_members f_lookup].
      replace (is_nil (flatten_plain (tc_scalarOf code) id cs)) with false; [reflexivity|].
      rewrite flatten_plain_eq. cbv zeta. destruct (_ =? _); reflexivity.
    + symmetry. now apply plain_assert.
Qed.
Lemma hd_set_parent_size p m rest : f_size (hd (fd_new tc_Null) (set_parent p (flatten m) ++ rest))
  = f_size (hd (fd_new tc_Null) (flatten m)).
Proof. destruct (flatten_cons m) as (h & t & -> & _). reflexivity. Qed.

(** ** equal shapes compare equal *)
Definition nodes_equal (a : member) : Prop := forall b fuel p q r1 r2 n,
  same_shape a b -> good_type a -> good_type b -> (levels a <= S fuel)%nat ->
  eq_nodes (fd_equal fuel) (length (flatten a) + n) (set_parent p (flatten a) ++ r1) (set_parent q (flatten b) ++ r2)
  = eq_nodes (fd_equal fuel) n r1 r2.

Lemma fd_equal_from a b fuel p q r1 r2 : nodes_equal a ->
  same_shape a b -> good_type a -> good_type b -> (levels a <= fuel)%nat ->
  fd_equal fuel (set_parent p (flatten a) ++ r1) (set_parent q (flatten b) ++ r2) = Some true.
Proof.
  intros N S GA GB L. destruct fuel as [|fuel].
  { destruct a. cbn [levels] in L. destruct (is_array_of_compound _) in L; lia. }
  pose proof (N b fuel p q r1 r2 0%nat S GA GB L) as H.
  pose proof (hd_set_parent_size p a r1) as SA. pose proof (hd_set_parent_size q b r2) as SB.
  rewrite good_size in SA, SB by assumption. pose proof (shape_length _ _ S) as SL.
  destruct (flatten_cons a) as (ha & ta & FA & _). destruct (flatten_cons b) as (hb & tb & FB & _).
  rewrite FA, FB in *. cbn [set_parent app] in *. rewrite fd_equal_S. cbn [hd] in SA, SB.
  rewrite SA, SB, SL, Nat.eqb_refl. cbn [negb]. rewrite <- SL. rewrite Nat.add_0_r in H. rewrite H. reflexivity.
Qed.

Lemma kids_equal cs cs' : Forall2 (fun x y => m_name x = m_name y /\ same_shape x y) cs cs' ->
  Forall nodes_equal cs -> Forall good_type cs -> Forall good_type cs' ->
  forall fuel off r1 r2 n, Forall (fun c => (levels c <= S fuel)%nat) cs ->
  eq_nodes (fd_equal fuel) (length (kids_from true off cs) + n) (kids_from true off cs ++ r1) (kids_from true off cs' ++ r2)
  = eq_nodes (fd_equal fuel) n r1 r2.
Proof.
  induction 1 as [|x y l l' [N S] F IH]; intros NE GA GB fuel off r1 r2 n LV; [reflexivity|].
  inversion NE; subst. inversion GA; subst. inversion GB; subst. inversion LV; subst.
  cbn [kids_from]. rewrite <- !app_assoc, app_length, set_parent_length, <- Nat.add_assoc.
  rewrite H1 by auto. rewrite <- (shape_length _ _ S). apply IH; auto.
Qed.

Lemma map_set_shared k (v : nat) l x i : In (x, i) (map_set k v l) -> (x, i) = (k, v) \/ In (x, i) l.
Proof. intro H. apply map_set_In in H. destruct H as [[-> ->]|H]; auto. Qed.

Lemma union_equal fuel cs cs' : Forall2 (fun x y => m_name x = m_name y /\ same_shape x y) cs cs' ->
  Forall nodes_equal cs -> Forall good_type cs -> Forall good_type cs' ->
  Forall (fun c => (levels c <= fuel)%nat) cs ->
  forall k i, In (k, i) (look_from false 0 cs []) ->
  fd_equal fuel (skipn i (kids_from false 0 cs)) (skipn i (kids_from false 0 cs')) = Some true.
Proof.
  intros F NE GA GB LV k i I.
  assert (G : forall l l', Forall2 (fun x y => m_name x = m_name y /\ same_shape x y) l l' ->
    Forall nodes_equal l -> Forall good_type l -> Forall good_type l' -> Forall (fun c => (levels c <= fuel)%nat) l ->
    forall off ka kb lk, skipn off ka = kids_from false off l -> skipn off kb = kids_from false off l' ->
    In (k, i) (look_from false off l lk) ->
    In (k, i) lk \/ fd_equal fuel (skipn i ka) (skipn i kb) = Some true).
  { clear. induction 1 as [|x y l l' [N S] F IH]; intros NE GA GB LV off ka kb lk KA KB I; [auto|].
    inversion NE; subst. inversion GA; subst. inversion GB; subst. inversion LV; subst.
    cbn [look_from kids_from] in *.
    assert (K1 : skipn (off + length (flatten x)) ka = kids_from false (off + length (flatten x)) l).
    { rewrite <- skipn_skipn_add, KA. apply skipn_len_app. }
    assert (K2 : skipn (off + length (flatten x)) kb = kids_from false (off + length (flatten x)) l').
    { rewrite <- skipn_skipn_add, KB, (shape_length _ _ S). apply skipn_len_app. }
    destruct (IH H2 H4 H6 H8 _ ka kb _ K1 K2 I) as [J|J]; [|auto].
    - unfold look_child in J. cbn [andb] in J. apply map_set_shared in J. destruct J as [J|J]; [|auto].
      inversion J; subst. right. rewrite KA, KB.
      rewrite <- (set_parent_flatten x), <- (set_parent_flatten y). apply fd_equal_from; auto. }
  destruct (G cs cs' F NE GA GB LV 0%nat _ _ [] eq_refl eq_refl I) as [[]|X]. exact X.
Qed.

Lemma eq_maps_union rec mx my l : (forall k i, In (k, i) l -> rec (skipn i mx) (skipn i my) = Some true) ->
  eq_maps rec true mx my l l = Some true.
Proof.
  induction l as [|[k i] l IH]; intro H; cbn [eq_maps]; [reflexivity|].
  rewrite str_eqb_refl, Nat.eqb_refl. cbn [negb]. rewrite (H k i) by now left. apply IH. intros k' i' I. apply (H k'). now right.
Qed.

Lemma plain_nodes_equal code id id' cs cs' fuel p q r1 r2 n :
  is_array_of_compound code = false ->
  Forall2 (fun x y => m_name x = m_name y /\ same_shape x y) cs cs' ->
  Forall nodes_equal cs -> Forall good_type cs -> Forall good_type cs' ->
  Forall (fun c => (levels c <= fuel)%nat) cs ->
  eq_nodes (fd_equal fuel) (length (flatten_plain code id cs) + n)
    (set_parent p (flatten_plain code id cs) ++ r1) (set_parent q (flatten_plain code id' cs') ++ r2)
  = eq_nodes (fd_equal fuel) n r1 r2.
Proof.
  intros A F NE GA GB LV. rewrite !flatten_plain_eq. cbv zeta.
  assert (LK : look_from (code =? tc_Struct) (base_of code) cs [] = look_from (code =? tc_Struct) (base_of code) cs' []).
  { pose proof (shape_lookup (Mem code [] id cs) (Mem code [] id' cs')) as X.
    assert (S : same_shape (Mem code [] id cs) (Mem code [] id' cs')) by (constructor; [reflexivity|exact F]).
    specialize (X S). unfold lookup_of in X. rewrite !flatten_eq, A, !flatten_plain_eq in X. cbv zeta in X.
    destruct (code =? tc_Struct); exact X. }
  destruct (Z.eqb_spec code tc_Struct) as [->|NS].
  - cbn [set_parent app length Nat.add eq_nodes]. cbn [f_code]. rewrite Z.eqb_refl. cbn [negb].
    unfold eq_node. cbn [f_code f_members f_lookup]. rewrite A. change (tc_Struct =? tc_Struct) with true. cbn [orb].
    change (tc_Struct =? tc_Union) with false. cbv iota.
    rewrite <- LK, eq_maps_same. fold (eq_nodes (fd_equal fuel)).
    apply kids_equal; auto. eapply Forall_impl; [|exact LV]. cbv beta. intros; lia.
  - cbn [set_parent app length Nat.add eq_nodes]. cbn [f_code]. rewrite Z.eqb_refl. cbn [negb].
    unfold eq_node. cbn [f_code f_members f_lookup]. rewrite A.
    destruct (Z.eqb_spec code tc_Struct); [easy|]. cbn [orb].
    destruct (Z.eqb_spec code tc_Union) as [->|NU]; [|reflexivity].
    rewrite <- LK. rewrite eq_maps_union; [reflexivity|].
    intros k i I. eapply union_equal; eauto.
Qed.

Lemma elem_good code name id cs : good_type (Mem code name id cs) -> is_array_of_compound code = true ->
  good_type (Mem (tc_scalarOf code) name id cs).
Proof.
  intros (D & N & A) AC. destruct (array_scalar _ AC) as [_ SC]. split; [|split].
  - destruct (describable_inv _ _ _ _ D) as [(M & W & Z & F)|(M & LF & -> & ->)].
    + cbn [describable]. replace (has_members (tc_scalarOf code)) with true by (destruct SC as [-> | ->]; reflexivity).
      cbn [describable] in D. rewrite M in D. exact D.
    + unfold has_members in M. rewrite AC, orb_true_r in M. discriminate.
  - apply distinct_children in N. apply distinct_children. destruct N as [N1 N2]. split; [|exact N2].
    intro E. apply N1. rewrite <- E. clear. unfold tc_scalarOf. rewrite <- Z.land_assoc. reflexivity.
  - exact A.
Qed.

Lemma nodes_equal_all a : nodes_equal a.
Proof.
  induction a as [code name id cs IH] using member_ind'. intros [code' name' id' cs'] fuel p q r1 r2 n S GA GB L.
  pose proof (good_children _ _ _ _ GA) as CA. pose proof (good_children _ _ _ _ GB) as CB.
  pose proof (levels_children _ _ _ _ _ L) as LC.
  pose proof (same_shape_inv _ _ S) as [E F]. cbn [m_code m_children] in E, F. subst code'.
  rewrite !flatten_eq. destruct (is_array_of_compound code) eqn:A.
  - cbn [set_parent app length Nat.add eq_nodes f_code]. rewrite Z.eqb_refl. cbn [negb].
    unfold eq_node. cbn [f_code f_members]. rewrite A.
    destruct (levels_ge _ _ _ _ _ L) as (n1 & E1 & LA). destruct (LA A) as (n2 & ->).
    inversion E1; subst fuel. clear E1.
    assert (SS : same_shape (Mem (tc_scalarOf code) name id cs) (Mem (tc_scalarOf code) name' id' cs')) by (constructor; [reflexivity|exact F]).
    pose proof (elem_good _ _ _ _ GA A) as EA. pose proof (elem_good _ _ _ _ GB A) as EB.
    assert (A2 : is_array_of_compound (tc_scalarOf code) = false) by (destruct (array_scalar _ A) as [_ [-> | ->]]; reflexivity).
    assert (FL : forall nm i x, flatten (Mem (tc_scalarOf code) nm i x) = flatten_plain (tc_scalarOf code) i x) by (intros; now rewrite flatten_eq, A2).
    pose proof (good_size _ EA) as ZA. pose proof (good_size _ EB) as ZB. pose proof (shape_length _ _ SS) as ZL.
    pose proof (plain_nodes_equal (tc_scalarOf code) id id' cs cs' n2 0 0 [] [] 0 A2 F IH CA CB) as PN.
    rewrite Nat.add_0_r, !app_nil_r in PN.
    assert (LV : Forall (fun c => (levels c <= n2)%nat) cs) by (eapply Forall_impl; [|exact LC]; cbv beta; intros; lia).
    specialize (PN LV).
    rewrite !FL in *.
    assert (SP : forall i x, set_parent 0 (flatten_plain (tc_scalarOf code) i x) = flatten_plain (tc_scalarOf code) i x).
    { intros. rewrite flatten_plain_eq. cbv zeta. destruct (_ =? _); reflexivity. }
    rewrite !SP in PN.
    assert (CO : forall i x, exists h t, flatten_plain (tc_scalarOf code) i x = h :: t).
    { intros. rewrite flatten_plain_eq. cbv zeta. destruct (_ =? _); eauto. }
    destruct (CO id cs) as (h1 & t1 & E1). destruct (CO id' cs') as (h2 & t2 & E2).
    rewrite E1, E2 in *. rewrite fd_equal_S. cbn [hd] in ZA, ZB. rewrite ZA, ZB, ZL, Nat.eqb_refl. cbn [negb].
    rewrite <- ZL, PN. reflexivity.
  - apply plain_nodes_equal; auto. eapply Forall_impl; [|exact LC]. cbv beta. intros; lia.
Qed.

Lemma fd_equal_complete a b fuel : same_shape a b -> good_type a -> good_type b -> (levels a <= fuel)%nat ->
  fd_equal fuel (flatten a) (flatten b) = Some true.
Proof.
  intros S GA GB L. rewrite <- (app_nil_r (flatten a)), <- (app_nil_r (flatten b)).
  rewrite <- (set_parent_flatten a), <- (set_parent_flatten b). apply fd_equal_from; auto. apply nodes_equal_all.
Qed.

(** ** without unions, types which compare equal have the same shape *)

Lemma incl_same_snd {K} (l : list (K * nat)) : forall l', map snd l = map snd l' -> NoDup (map snd l) -> incl l l' -> l = l'.
Proof.
  induction l as [|[k i] l IH]; intros [|[k' i'] l'] E N I; cbn [map snd] in *; try discriminate; [reflexivity|].
  inversion E as [[E1 E2]]. subst i'. inversion N as [|? ? N1 N2]; subst.
  assert (k = k') as <-.
  { destruct (I (k, i) (or_introl eq_refl)) as [X|X]; [congruence|]. exfalso. apply N1. rewrite E2. now apply (in_map snd) in X. }
  f_equal. apply IH; auto. intros x X. destruct (I x (or_intror X)) as [<-|Y]; [|exact Y].
  exfalso. apply N1. now apply (in_map snd) in X.
Qed.

Lemma split_by {A} (P : A -> Prop) : forall l1 l2 r1 r2 : list A, l1 ++ r1 = l2 ++ r2 ->
  Forall P l1 -> Forall P l2 ->
  (forall x t, r1 = x :: t -> ~ P x) -> (forall x t, r2 = x :: t -> ~ P x) -> l1 = l2 /\ r1 = r2.
Proof.
  induction l1 as [|x l1 IH]; intros [|y l2] r1 r2 E F1 F2 R1 R2; cbn [app] in E.
  - auto.
  - exfalso. inversion F2; subst. exact (R1 _ _ eq_refl H1).
  - exfalso. inversion F1; subst. exact (R2 _ _ eq_refl H1).
  - inversion E; subst. inversion F1; inversion F2; subst. destruct (IH l2 r1 r2) as [-> ->]; auto.
Qed.

Lemma map_prefix_inj name off (l l' : list (str * nat)) :
  map (fun q => (name ++ dot :: fst q, (off + snd q)%nat)) l = map (fun q => (name ++ dot :: fst q, (off + snd q)%nat)) l' -> l = l'.
Proof.
  revert l'. induction l as [|[k i] l IH]; intros [|[k' i'] l'] E; cbn [map fst snd] in E; try discriminate; [reflexivity|].
  inversion E as [[E1 E2 E3]]. apply app_inv_head in E1. inversion E1. f_equal; [f_equal; lia|auto].
Qed.

Lemma plist_from_inj cs : Forall (fun c => no_dot (m_name c)) cs -> forall cs' off, Forall (fun c => no_dot (m_name c)) cs' ->
  plist_from off cs = plist_from off cs' ->
  Forall2 (fun c c' => m_name c = m_name c' /\ plist c = plist c' /\ length (flatten c) = length (flatten c')) cs cs'.
Proof.
  induction 1 as [|c cs N F IH]; intros cs' off F' E.
  - destruct cs'; [constructor|]. cbn [plist_from] in E. discriminate.
  - destruct cs' as [|c' cs']; cbn [plist_from] in E; [discriminate|]. inversion F' as [|? ? N' F'']; subst.
    injection E as E1 E2. rewrite <- E1 in E2.
    assert (HD : forall o l x t, Forall (fun c => no_dot (m_name c)) l -> plist_from o l = x :: t -> ~ In dot (fst x)).
    { intros o [|z l] x t Fz Z; cbn [plist_from] in Z; [discriminate|]. inversion Z; subst. now inversion Fz. }
    destruct (split_by (fun q => In dot (fst q)) _ _ _ _ E2) as [L R].
    + apply Forall_forall. intros x I. apply in_map_iff in I. destruct I as (y & <- & _). cbn [fst]. apply in_or_app. right. now left.
    + apply Forall_forall. intros x I. apply in_map_iff in I. destruct I as (y & <- & _). cbn [fst]. apply in_or_app. right. now left.
    + intros x t. now apply HD.
    + intros x t. now apply HD.
    + apply map_prefix_inj in L. assert (LL : length (flatten c) = length (flatten c')).
      { pose proof (plist_length c). pose proof (plist_length c'). pose proof (flatten_length c). pose proof (flatten_length c'). rewrite L in *. lia. }
      constructor; [auto|]. rewrite LL in R. eapply IH; eauto.
Qed.

Lemma sorted_ext {V} (l : list (str * V)) : forall l', sorted l -> sorted l' ->
  (forall k v, In (k, v) l <-> In (k, v) l') -> l = l'.
Proof.
  unfold sorted, keys. induction l as [|[k v] l IH]; intros [|[k' v'] l'] S S' E.
  - reflexivity.
  - exfalso. now apply (proj2 (E k' v')); left.
  - exfalso. now apply (proj1 (E k v)); left.
  - cbn [map fst] in *. inversion S as [|? ? S1 F1]; subst. inversion S' as [|? ? S2 F2]; subst.
    rewrite Forall_forall in F1, F2.
    assert (H : (k, v) = (k', v')).
    { destruct (proj1 (E k v) (or_introl eq_refl)) as [X|X]; [auto|].
      destruct (proj2 (E k' v') (or_introl eq_refl)) as [Y|Y]; [auto|]. exfalso.
      specialize (F1 k' (in_map fst _ _ Y)). specialize (F2 k (in_map fst _ _ X)). unfold str_lt in *.
      pose proof (str_ltb_trans _ _ _ F1 F2) as Z. now rewrite str_ltb_irrefl in Z. }
    inversion H; subst. f_equal. apply IH; auto. intros x y. specialize (E x y). split; intro I.
    + destruct (proj1 E (or_intror I)) as [X|X]; [|exact X]. inversion X; subst. exfalso.
      specialize (F1 x (in_map fst _ _ I)). unfold str_lt in F1. now rewrite str_ltb_irrefl in F1.
    + destruct (proj2 E (or_intror I)) as [X|X]; [|exact X]. inversion X; subst. exfalso.
      specialize (F2 x (in_map fst _ _ I)). unfold str_lt in F2. now rewrite str_ltb_irrefl in F2.
Qed.

Lemma lookup_plist a b : m_code a = tc_Struct -> m_code b = tc_Struct -> good_type a -> good_type b ->
  length (flatten a) = length (flatten b) -> (lookup_of a = lookup_of b <-> plist a = plist b).
Proof.
  intros CA CB (_ & NA & DA) (_ & NB & DB) L.
  pose proof (plist_NoDup a NA DA) as PA. pose proof (plist_NoDup b NB DB) as PB. split; intro E.
  - apply incl_same_snd.
    + now rewrite !plist_offs, L.
    + rewrite plist_offs. apply seq_NoDup.
    + intros [k i] I. apply lookup_In; auto. rewrite <- E. now apply lookup_In.
  - pose proof (lookup_sorted a) as SA. pose proof (lookup_sorted b) as SB.
    apply sorted_ext; auto. intros k i. rewrite !lookup_In by auto. now rewrite E.
Qed.

(** comparing two segments of nodes with the same paths *)
Definition nodes_exact (a : member) : Prop := forall b fuel p q,
  good_type a -> good_type b -> union_free a = true -> (levels a <= S fuel)%nat ->
  length (flatten a) = length (flatten b) -> plist a = plist b ->
  exists r, (r = true <-> same_shape a b) /\ forall r1 r2 n,
  eq_nodes (fd_equal fuel) (length (flatten a) + n) (set_parent p (flatten a) ++ r1) (set_parent q (flatten b) ++ r2)
  = if r then eq_nodes (fd_equal fuel) n r1 r2 else Some false.

Lemma kids_exact cs cs' : Forall2 (fun c c' => m_name c = m_name c' /\ plist c = plist c' /\ length (flatten c) = length (flatten c')) cs cs' ->
  Forall nodes_exact cs -> Forall good_type cs -> Forall good_type cs' -> Forall (fun c => union_free c = true) cs ->
  forall fuel off, Forall (fun c => (levels c <= S fuel)%nat) cs ->
  exists r, (r = true <-> Forall2 (fun x y => m_name x = m_name y /\ same_shape x y) cs cs') /\ forall r1 r2 n,
  eq_nodes (fd_equal fuel) (length (kids_from true off cs) + n) (kids_from true off cs ++ r1) (kids_from true off cs' ++ r2)
  = if r then eq_nodes (fd_equal fuel) n r1 r2 else Some false.
Proof.
  induction 1 as [|x y l l' (N & P & LN) F IH]; intros NE GA GB U fuel off LV.
  - exists true. split; [split; auto|reflexivity].
  - inversion NE; subst. inversion GA; subst. inversion GB; subst. inversion LV; subst. inversion U; subst.
    destruct (IH H2 H4 H6 H10 fuel (off + length (flatten x))%nat H8) as (rt & T1 & T2).
    destruct (H1 y fuel off off H3 H5 H9 H7 LN P) as (rh & S1 & S2).
    exists (rh && rt). split.
    + rewrite andb_true_iff, S1, T1. split; [intros [A B]; constructor; auto|]. intro X. inversion X; subst. tauto.
    + intros r1 r2 n. cbn [kids_from]. rewrite <- !app_assoc, app_length, set_parent_length, <- Nat.add_assoc, S2.
      destruct rh; [|reflexivity]. rewrite <- LN, T2. reflexivity.
Qed.

Lemma no_dot_children code name id cs : good_type (Mem code name id cs) -> Forall (fun c => no_dot (m_name c)) cs.
Proof. intros (_ & _ & A). apply all_names_children in A. eapply Forall_impl; [|exact A]. cbv beta. intros a H. exact (proj1 H). Qed.

Lemma eq_nodes_code rec n x y a b : f_code x <> f_code y -> eq_nodes rec (S n) (x :: a) (y :: b) = Some false.
Proof. intro N. cbn [eq_nodes]. destruct (Z.eqb_spec (f_code x) (f_code y)); [easy|reflexivity]. Qed.

Lemma root_exact a : nodes_exact a -> forall b fuel, good_type a -> good_type b -> union_free a = true ->
  (levels a <= fuel)%nat -> exists r, fd_equal fuel (flatten a) (flatten b) = Some r /\ (r = true <-> same_shape a b).
Proof.
  intros NX b fuel GA GB U L. destruct fuel as [|fuel].
  { destruct a. cbn [levels] in L. destruct (is_array_of_compound _) in L; lia. }
  pose proof (good_size _ GA) as SA. pose proof (good_size _ GB) as SB.
  pose proof (NX b fuel 0%nat 0%nat GA GB U L) as NX'.
  destruct (flatten_cons a) as (ha & ta & FA & CA & _). destruct (flatten_cons b) as (hb & tb & FB & CB & _).
  assert (FE : fd_equal (S fuel) (flatten a) (flatten b) =
    if negb (Nat.eqb (length (flatten a)) (length (flatten b))) then Some false
    else eq_nodes (fd_equal fuel) (length (flatten a)) (flatten a) (flatten b)).
  { rewrite FA, FB in *. cbn [hd] in SA, SB. now rewrite fd_equal_S, SA, SB. }
  rewrite FE. clear FE.
  destruct (Nat.eqb_spec (length (flatten a)) (length (flatten b))) as [LE|LN]; cbn [negb].
  2:{ exists false. split; [reflexivity|]. split; [discriminate|]. intro S. now apply shape_length in S. }
  assert (P : plist a = plist b -> exists r, eq_nodes (fd_equal fuel) (length (flatten a)) (flatten a) (flatten b) = Some r
    /\ (r = true <-> same_shape a b)).
  { intro PE. destruct (NX' LE PE) as (r & R1 & R2). specialize (R2 [] [] 0%nat).
    rewrite Nat.add_0_r, !app_nil_r, !set_parent_flatten in R2. exists r. split; [rewrite R2; now destruct r|exact R1]. }
  destruct (Z.eq_dec (m_code a) (m_code b)) as [CE|CN].
  2:{ exists false. split; [|split; [discriminate|]; intro S; apply same_shape_inv in S; easy].
      rewrite FA, FB. cbn [length]. apply eq_nodes_code. congruence. }
  destruct (Z.eq_dec (m_code a) tc_Struct) as [ST|NS].
  2:{ apply P. rewrite !plist_not_struct; congruence. }
  pose proof (lookup_plist a b ST ltac:(congruence) GA GB LE) as LP.
  destruct (eq_maps_exact (fd_equal fuel) (f_members ha) (f_members hb) (lookup_of a) (lookup_of b)) as (r & M1 & M2).
  { destruct GA as (_ & NA & DA), GB as (_ & NB & DB).
    rewrite (proj2 (lookup_length_eq a ST)), (proj2 (lookup_length_eq b ltac:(congruence))), !plist_length, LE; [reflexivity| |]; now apply plist_NoDup. }
  destruct r.
  - apply P. apply LP, M2. reflexivity.
  - exists false. split.
    + rewrite FA at 2. rewrite FB. rewrite FA. cbn [length eq_nodes]. rewrite CA, CB, CE, Z.eqb_refl. cbn [negb].
      unfold eq_node. rewrite CA, ST. change (is_array_of_compound tc_Struct) with false. change (tc_Struct =? tc_Struct) with true.
      change (tc_Struct =? tc_Union) with false. cbn [orb]. cbv iota.
      unfold lookup_of in M1. rewrite FA, FB in M1. cbn [hd] in M1. rewrite M1. reflexivity.
    + split; [discriminate|]. intro S. apply shape_lookup in S. apply M2 in S. discriminate.
Qed.

Lemma union_free_children code name id cs : union_free (Mem code name id cs) = true ->
  code <> tc_Union /\ code <> tc_UnionA /\ Forall (fun c => union_free c = true) cs.
Proof. cbn [union_free]. rewrite !andb_true_iff, forallb_Forall. intros [[A B] C]. repeat split; auto; lia. Qed.

Lemma leaf_nil code name id cs : describable (Mem code name id cs) = true -> has_members code = false -> cs = [].
Proof. intros D M. destruct (describable_inv _ _ _ _ D) as [(M' & _)|(_ & _ & _ & ->)]; [congruence|reflexivity]. Qed.

Lemma plain_exact code name id cs : is_array_of_compound code = false -> Forall nodes_exact cs -> nodes_exact (Mem code name id cs).
Proof.
  intros A IH [code' name' id' cs'] fuel p q GA GB U L LE PE.
  pose proof (union_free_children _ _ _ _ U) as (NU & NUA & UC).
  destruct (Z.eq_dec code code') as [<-|CN].
  2:{ exists false. split; [split; [discriminate|]; intro S; apply same_shape_inv in S; easy|].
      intros r1 r2 n. destruct (flatten_cons (Mem code name id cs)) as (ha & ta & FA & CA & _).
      destruct (flatten_cons (Mem code' name' id' cs')) as (hb & tb & FB & CB & _).
      rewrite FA, FB. cbn [set_parent app length Nat.add]. apply eq_nodes_code. cbn [f_code]. cbn [m_code] in *. congruence. }
  pose proof (levels_children _ _ _ _ _ L) as LC.
  destruct (Z.eq_dec code tc_Struct) as [->|NS].
  - pose proof PE as PE2. rewrite !plist_eq in PE2. change (tc_Struct =? tc_Struct) with true in PE2. cbv iota in PE2.
    apply plist_from_inj in PE2; [|eapply no_dot_children; eassumption|eapply no_dot_children; eassumption].
    destruct (kids_exact cs cs' PE2 IH (good_children _ _ _ _ GA) (good_children _ _ _ _ GB) UC fuel 1%nat) as (r & R1 & R2).
    { eapply Forall_impl; [|exact LC]. cbv beta. intros; lia. }
    exists r. split.
    { rewrite R1. split; intro S; [constructor; auto|]. now apply same_shape_inv in S. }
    intros r1 r2 n.
    pose proof (proj2 (lookup_plist (Mem tc_Struct name id cs) (Mem tc_Struct name' id' cs') eq_refl eq_refl GA GB LE) PE) as LK.
    rewrite !lookup_struct in LK by reflexivity.
    rewrite !flatten_eq, A, !flatten_plain_eq. cbv zeta. change (tc_Struct =? tc_Struct) with true. cbv iota.
    cbn [set_parent app length Nat.add eq_nodes f_code]. rewrite Z.eqb_refl. cbn [negb].
    unfold eq_node. cbn [f_code f_members f_lookup]. rewrite A. change (tc_Struct =? tc_Struct) with true. cbn [orb].
    change (tc_Struct =? tc_Union) with false. cbv iota. change (base_of tc_Struct) with 1%nat.
    rewrite <- LK, eq_maps_same. fold (eq_nodes (fd_equal fuel)). apply R2.
  - assert (M : has_members code = false).
    { unfold has_members. rewrite A. destruct (Z.eqb_spec code tc_Struct), (Z.eqb_spec code tc_Union); easy. }
    pose proof (leaf_nil _ _ _ _ (proj1 GA) M). pose proof (leaf_nil _ _ _ _ (proj1 GB) M). subst cs cs'.
    exists true. split; [split; auto; constructor; [reflexivity|constructor]|]. intros r1 r2 n.
    rewrite !flatten_eq, A, !flatten_plain_eq. cbv zeta.
    destruct (Z.eqb_spec code tc_Struct); [easy|].
    cbn [set_parent app length Nat.add eq_nodes f_code]. rewrite Z.eqb_refl. cbn [negb].
    unfold eq_node. cbn [f_code]. rewrite A. destruct (Z.eqb_spec code tc_Struct), (Z.eqb_spec code tc_Union); easy.
Qed.

Lemma nodes_exact_all a : nodes_exact a.
Proof.
  induction a as [code name id cs IH] using member_ind'. destruct (is_array_of_compound code) eqn:A; [|now apply plain_exact].
  intros [code' name' id' cs'] fuel p q GA GB U L LE PE.
  pose proof (union_free_children _ _ _ _ U) as (NU & NUA & UC).
  destruct (Z.eq_dec code code') as [<-|CN].
  2:{ exists false. split; [split; [discriminate|]; intro S; apply same_shape_inv in S; easy|].
      intros r1 r2 n. destruct (flatten_cons (Mem code name id cs)) as (ha & ta & FA & CA & _).
      destruct (flatten_cons (Mem code' name' id' cs')) as (hb & tb & FB & CB & _).
      rewrite FA, FB. cbn [set_parent app length Nat.add]. apply eq_nodes_code. cbn [f_code]. cbn [m_code] in *. congruence. }
  assert (code = tc_StructA) as ->.
  { unfold is_array_of_compound in A. destruct (Z.eqb_spec code tc_StructA), (Z.eqb_spec code tc_UnionA); easy. }
  pose proof (elem_good _ _ _ _ GA A) as EA. pose proof (elem_good _ _ _ _ GB A) as EB.
  change (tc_scalarOf tc_StructA) with tc_Struct in *.
  destruct (levels_ge _ _ _ _ _ L) as (n1 & E1 & LA). destruct (LA A) as (n2 & ->). inversion E1; subst fuel. clear E1.
  destruct (root_exact (Mem tc_Struct name id cs) (plain_exact tc_Struct name id cs eq_refl IH) (Mem tc_Struct name' id' cs') (S n2) EA EB) as (r & R1 & R2).
  { cbn [union_free] in *. apply andb_true_iff in U. destruct U as [_ ->]. reflexivity. }
  { cbn [levels] in *. rewrite A in L. change (is_array_of_compound tc_Struct) with false. cbv iota in *. lia. }
  exists r. split.
  { rewrite R2. split; intro S; apply same_shape_inv in S; destruct S; constructor; auto. }
  intros r1 r2 n. rewrite !flatten_eq in R1. rewrite !flatten_eq, A. change (tc_scalarOf tc_StructA) with tc_Struct.
  change (is_array_of_compound tc_Struct) with false in R1. cbv iota in R1.
  cbn [set_parent app length Nat.add eq_nodes f_code]. rewrite Z.eqb_refl. cbn [negb].
  unfold eq_node. cbn [f_code f_members]. rewrite A, R1. destruct r; reflexivity.
Qed.

Lemma fd_equal_exact a b fuel : good_type a -> good_type b -> union_free a = true -> (levels a <= fuel)%nat ->
  exists r, fd_equal fuel (flatten a) (flatten b) = Some r /\ (r = true <-> same_shape a b).
Proof. intros. apply root_exact; auto. apply nodes_exact_all. Qed.
