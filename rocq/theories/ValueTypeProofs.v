(** Nodes of types, and construction of Values from types. *)
From Coq Require Import ZArith List Bool Lia ZifyBool ZifyNat.
From Verif Require Import Base BaseProofs WireModel TypeModel TypeSpec TypeProofs TypeNameProofs ValueModel ValueSpec LayoutProofs.
Import ListNotations.
Local Open Scope Z_scope.

(** [d] is the first node of type [m] *)
Definition is_node (m : member) (d : fdesc) : Prop := exists p rest, set_parent p (flatten m) = d :: rest.

Lemma is_node_self m : exists d rest, flatten m = d :: rest /\ is_node m d.
Proof.
  destruct (flatten_cons m) as (d & rest & E & _). exists d, rest. split; [exact E|]. exists 0%nat, rest.
  now rewrite set_parent_flatten.
Qed.

Lemma kids_In st cs : forall off d, In d (kids_from st off cs) ->
  exists c p, In c cs /\ (In d (set_parent p (flatten c)) \/ In d (flatten c)).
Proof.
  induction cs as [|c cs IH]; intros off d I; [easy|]. cbn [kids_from] in I. apply in_app_or in I as [I|I].
  - exists c, off. split; [now left|]. destruct st; auto.
  - destruct (IH _ _ I) as (c' & p & I1 & I2). exists c', p. split; [now right|exact I2].
Qed.
Lemma set_parent_In p m d : In d (set_parent p (flatten m)) -> is_node m d \/ In d (flatten m).
Proof.
  destruct (flatten_cons m) as (d0 & rest & E & _). rewrite E. cbn [set_parent In]. intros [<-|I].
  - left. exists p, rest. now rewrite E.
  - right. auto.
Qed.

Lemma flatten_nodes (P : member -> Prop) :
  (forall code name id cs, P (Mem code name id cs) -> Forall P cs) ->
  forall m, P m -> forall d, In d (flatten m) -> exists m', P m' /\ is_node m' d.
Proof.
  intro HP. induction m as [code name id cs IH] using member_ind'. intros H d I.
  pose proof (HP _ _ _ _ H) as HC.
  destruct (is_node_self (Mem code name id cs)) as (d0 & rest & E & N).
  rewrite E in I. destruct I as [<-|I]; [eauto|].
  rewrite flatten_eq in E. destruct (is_array_of_compound code); [inversion E; subst; easy|].
  rewrite flatten_plain_eq in E. cbv zeta in E. destruct (code =? tc_Struct); inversion E; subst; [|easy].
  destruct (kids_In _ _ _ _ I) as (c & p & IC & ID). rewrite Forall_forall in *.
  destruct ID as [ID|ID].
  - apply set_parent_In in ID as [ID|ID]; [eauto|]. eapply IH; eauto.
  - eapply IH; eauto.
Qed.

Lemma describable_hereditary code name id cs : describable (Mem code name id cs) = true -> Forall (fun c => describable c = true) cs.
Proof.
  intro D. destruct (describable_inv _ _ _ _ D) as [(M & W & N & F)|(M & LF & -> & ->)]; [|constructor].
  rewrite Forall_forall in *. intros c I. now apply F.
Qed.
Lemma good_hereditary code name id cs : good_type (Mem code name id cs) -> Forall good_type cs.
Proof.
  intros (D & N & A). apply describable_hereditary in D. apply distinct_children in N as [_ N].
  apply all_names_children in A. rewrite Forall_forall in *. intros c I. repeat split; auto. now apply A.
Qed.
Lemma good_element code name id cs : is_array_of_compound code = true -> good_type (Mem code name id cs) ->
  good_type (Mem (tc_scalarOf code) name id cs).
Proof.
  intros A (D & N & L). apply distinct_children in N as [N1 N2].
  assert (S : tc_scalarOf (tc_scalarOf code) = tc_scalarOf code).
  { unfold is_array_of_compound in A. apply orb_true_iff in A as [A|A]; apply Z.eqb_eq in A; subst; reflexivity. }
  split; [|split].
  - cbn [describable] in *. unfold is_array_of_compound in A. apply orb_true_iff in A as [A|A]; apply Z.eqb_eq in A; subst; exact D.
  - apply distinct_children. rewrite S. auto.
  - apply all_names_children in L. now apply all_names_children.
Qed.
Lemma describable_element code name id cs : is_array_of_compound code = true -> describable (Mem code name id cs) = true ->
  describable (Mem (tc_scalarOf code) name id cs) = true.
Proof.
  intros A D. cbn [describable] in *. unfold is_array_of_compound in A. apply orb_true_iff in A as [A|A]; apply Z.eqb_eq in A; subst; exact D.
Qed.

Lemma node_code m d : is_node m d -> f_code d = m_code m.
Proof.
  intros (p & rest & E). destruct (flatten_cons m) as (d0 & r & E0 & C & _). rewrite E0 in E. cbn in E. now inversion E.
Qed.
Lemma node_array code name id cs d : is_array_of_compound code = true -> is_node (Mem code name id cs) d ->
  f_members d = flatten (Mem (tc_scalarOf code) name id cs) /\ f_iter d = [].
Proof.
  intros A (p & rest & E). rewrite flatten_eq, A in E. cbn [set_parent] in E. inversion E. cbn [f_members f_iter]. rewrite flatten_eq.
  assert (S : is_array_of_compound (tc_scalarOf code) = false).
  { unfold is_array_of_compound in A. apply orb_true_iff in A as [A|A]; apply Z.eqb_eq in A; subst; reflexivity. }
  now rewrite S.
Qed.
Lemma node_union name id cs d : is_node (Mem tc_Union name id cs) d ->
  f_members d = kids_from false 0 cs /\ f_iter d = iter_from 0 cs.
Proof.
  intros (p & rest & E). rewrite flatten_eq in E. change (is_array_of_compound tc_Union) with false in E. cbv iota in E.
  rewrite flatten_plain_eq in E. change (tc_Union =? tc_Struct) with false in E. cbv iota zeta in E. cbn [set_parent] in E.
  inversion E. cbn [f_members f_iter]. change (base_of tc_Union) with 0%nat. auto.
Qed.

(** ** sizes *)
Definition sized (m : member) : Prop := f_size (first_node (flatten m)) = length (flatten m).
Lemma sized_iff m : describable m = true -> (sized m <-> NoDup (keys (plist m))).
Proof.
  intro D. unfold sized. destruct (Z.eqb_spec (m_code m) tc_Struct) as [E|N].
  - rewrite <- struct_assert by exact E. unfold first_node. lia.
  - rewrite plist_not_struct by exact N. split; [constructor|]. intros _. destruct m as [code name id cs].
    cbn [m_code] in N. rewrite flatten_eq. unfold first_node. destruct (is_array_of_compound code) eqn:A.
    + unfold f_size. cbn [hd f_members f_lookup length]. now destruct (is_nil _).
    + now rewrite <- plain_assert.
Qed.
Lemma sized_lay m : describable m = true -> sized m -> lay (flatten m).
Proof. intros D S. apply lay_flatten. now apply sized_iff. Qed.
Lemma good_sized m : good_type m -> sized m.
Proof. intros (D & N & A). apply sized_iff; [exact D|]. now apply plist_NoDup. Qed.
Lemma size_le m : describable m = true -> (f_size (first_node (flatten m)) <= length (flatten m))%nat.
Proof.
  intro D. destruct (Z.eqb_spec (m_code m) tc_Struct) as [E|N].
  - unfold first_node. rewrite struct_size by exact E. pose proof (lookup_length_le m E). rewrite plist_length in H.
    pose proof (flatten_length m). lia.
  - assert (S : sized m) by (apply sized_iff; [exact D|]; rewrite plist_not_struct by exact N; constructor).
    unfold sized in S. lia.
Qed.

(** what a Union's selector leads to *)
Lemma union_child cs : Forall (fun c => describable c = true) cs ->
  forall off pre name i, length pre = off -> In (name, i) (iter_from off cs) ->
  exists c, In c cs /\ m_name c = name /\
    sub_desc i (pre ++ kids_from false off cs) = firstn (f_size (first_node (flatten c))) (flatten c).
Proof.
  induction 1 as [|c cs D _ IH]; intros off pre name i L I; [easy|]. cbn [iter_from kids_from] in *. destruct I as [I|I].
  - injection I as <- <-. exists c. split; [now left|]. split; [reflexivity|].
    unfold sub_desc. rewrite skipn_app, <- L, skipn_all, Nat.sub_diag. cbn [skipn app].
    destruct (flatten_cons c) as (d & r & E & _). pose proof (size_le c D) as SL. rewrite E in *. cbn [app hd first_node] in *.
    change (d :: r ++ kids_from false (length pre + length (d :: r)) cs) with ((d :: r) ++ kids_from false (length pre + length (d :: r)) cs).
    rewrite firstn_app. replace (f_size d - length (d :: r))%nat with 0%nat by lia. cbn [firstn]. now rewrite app_nil_r.
  - destruct (IH (off + length (flatten c))%nat (pre ++ flatten c) name i) as (c' & I1 & N & I2); [rewrite app_length; lia|exact I|].
    exists c'. split; [now right|]. split; [exact N|]. rewrite <- app_assoc in I2. exact I2.
Qed.
Lemma union_sub name id cs d n i : describable (Mem tc_Union name id cs) = true -> is_node (Mem tc_Union name id cs) d ->
  In (n, i) (f_iter d) -> exists c, In c cs /\ m_name c = n /\ describable c = true /\
    sub_desc i (f_members d) = firstn (f_size (first_node (flatten c))) (flatten c).
Proof.
  intros D N I. destruct (node_union _ _ _ _ N) as [-> E]. rewrite E in I. apply describable_hereditary in D.
  destruct (union_child cs D 0 [] n i eq_refl I) as (c & IC & NM & S). exists c. split; [exact IC|]. split; [exact NM|].
  split; [rewrite Forall_forall in D; auto|exact S].
Qed.
Lemma sized_firstn c : sized c -> firstn (f_size (first_node (flatten c))) (flatten c) = flatten c.
Proof. intro S. unfold sized in S. rewrite S. apply firstn_all. Qed.
Lemma sub_desc_0 m : sub_desc 0 (flatten m) = firstn (f_size (first_node (flatten m))) (flatten m).
Proof. reflexivity. Qed.

(** ** new values *)
Definition init_sto (d : fdesc) : sto value := match sto_init (f_code d) with Some s => s | None => SNull end.

Lemma leaf_init code : leaf_code code = true -> exists s, sto_init code = Some s.
Proof.
  intro H. pose proof (leaf_byte code H) as B.
  assert (K : forallb (fun n => let c := Z.of_nat n in
     negb (leaf_code c) || match sto_init c with Some _ => true | None => false end) (seq 0 256) = true) by (vm_compute; reflexivity).
  rewrite forallb_forall in K. specialize (K (Z.to_nat code)). cbv zeta in K. rewrite Z2Nat.id in K by lia.
  rewrite H in K. cbn [negb orb] in K. destruct (sto_init code); [eauto|]. discriminate K. apply in_seq. lia.
Qed.
Lemma describable_init m : describable m = true -> exists s, sto_init (m_code m) = Some s.
Proof.
  destruct m as [code name id cs]. intro D. cbn [m_code].
  destruct (describable_inv _ _ _ _ D) as [(M & W & N & F)|(M & LF & -> & ->)]; [|now apply leaf_init].
  unfold has_members, is_array_of_compound in M. apply orb_true_iff in M as [M|M]; apply orb_true_iff in M as [M|M];
  apply Z.eqb_eq in M; subst; vm_compute; eauto.
Qed.
Lemma nodes_init m : describable m = true -> Forall (fun d => sto_init (f_code d) = Some (init_sto d)) (flatten m).
Proof.
  intro D. apply Forall_forall. intros d I.
  destruct (flatten_nodes (fun m => describable m = true) describable_hereditary m D d I) as (m' & D' & N).
  destruct (describable_init m' D') as [s E]. unfold init_sto. rewrite (node_code _ _ N), E. reflexivity.
Qed.

Lemma cell_set_length {A} i (x : A) l : length (cell_set i x l) = length l.
Proof. revert i. induction l as [|y l IH]; intros [|i]; cbn; auto. Qed.
Lemma cell_set_nth {A} i (x : A) l j : (i < length l)%nat ->
  nth_error (cell_set i x l) j = if Nat.eqb j i then Some x else nth_error l j.
Proof.
  revert i j. induction l as [|y l IH]; intros [|i] [|j] H; cbn in *; try lia; auto. apply IH. lia.
Qed.

Lemma new_members_spec nodes : forall lk cells,
  (forall n i, In (n, i) lk -> (i < length cells)%nat -> exists d, nth_error nodes i = Some d /\ sto_init (f_code d) = Some (init_sto d)) ->
  (new_members lk nodes cells = DThrow /\ exists n i, In (n, i) lk /\ (length cells <= i)%nat) \/
  (exists cells', new_members lk nodes cells = DOK cells' /\ length cells' = length cells /\
    (forall n i, In (n, i) lk -> (i < length cells)%nat) /\
    forall j, nth_error cells' j =
      if existsb (fun p => Nat.eqb (snd p) j) lk
      then match nth_error nodes j with Some d => Some (false, init_sto d) | None => None end
      else nth_error cells j).
Proof.
  induction lk as [|[n i] lk IH]; intros cells H.
  { right. exists cells. repeat split; auto. easy. }
  cbn [new_members]. destruct (Nat.ltb_spec i (length cells)) as [L|L].
  - destruct (H n i ltac:(now left) L) as (d & E & S). rewrite E, S.
    specialize (IH (cell_set i (false, init_sto d) cells)). rewrite cell_set_length in IH.
    destruct IH as [(T & n' & i' & I & G)|(cells' & T & LE & A & K)].
    { intros n' i' I. apply (H n' i'). now right. }
    + left. split; [exact T|]. exists n', i'. split; [now right|exact G].
    + right. exists cells'. split; [exact T|]. split; [exact LE|]. split.
      { intros n' i' [I|I]; [injection I as <- <-; exact L|eauto]. }
      intro j. rewrite K. cbn [existsb snd]. rewrite cell_set_nth by exact L.
      rewrite (Nat.eqb_sym i j). destruct (existsb (fun p => (snd p =? j)%nat) lk); [now rewrite orb_true_r|].
      rewrite orb_false_r. destruct (Nat.eqb_spec j i) as [->|N]; [now rewrite E|reflexivity].
  - left. split; [reflexivity|]. exists n, i. split; [now left|exact L].
Qed.

Lemma nth_error_ext_eq {A} (a b : list A) : (forall i, nth_error a i = nth_error b i) -> a = b.
Proof.
  revert b. induction a as [|x a IH]; intros [|y b] H; auto.
  - specialize (H 0%nat). discriminate.
  - specialize (H 0%nat). discriminate.
  - pose proof (H 0%nat) as H0. cbn in H0. inversion H0; subst. f_equal. apply IH. intro i. exact (H (S i)).
Qed.
Lemma nth_error_repeat_lt {A} (x : A) n j : (j < n)%nat -> nth_error (repeat x n) j = Some x.
Proof. revert j. induction n as [|n IH]; intros [|j] H; cbn; try lia; auto. apply IH. lia. Qed.

Lemma plist_last m : m_code m = tc_Struct -> (2 <= length (flatten m))%nat ->
  exists k, In (k, (length (flatten m) - 1)%nat) (lookup_of m).
Proof.
  intros E L. pose proof (plist_offs m) as O.
  destruct (plist m) as [|x p] eqn:P using rev_ind.
  { cbn in O. destruct (length (flatten m) - 1)%nat eqn:X; [lia|discriminate]. }
  clear IHp. destruct x as [k i].
  assert (i = length (flatten m) - 1)%nat as ->.
  { rewrite map_app in O. cbn [map snd] in O. destruct (length (flatten m) - 1)%nat as [|n] eqn:X; [lia|].
    rewrite seq_S in O. apply app_inj_tail in O as [_ O]. lia. }
  exists k. apply map_get_In; [apply sorted_NoDup, lookup_sorted|].
  rewrite (lookup_ok_all m E), P, get_last_app. cbn [get_last]. rewrite (proj2 (str_eqb_eq k k) eq_refl). reflexivity.
Qed.

(** Building a Value: it succeeds with every field in its initial state, or
    throws because two members have the same path. *)
Lemma value_new_spec m nodes : describable m = true ->
  (forall j, (j < f_size (first_node (flatten m)))%nat -> nth_error nodes j = nth_error (flatten m) j) ->
  (sized m -> value_new nodes = DOK (Val nodes (map (fun d => (false, init_sto d)) (flatten m)))) /\
  (~ sized m -> value_new nodes = DThrow).
Proof.
  intros D HN. pose proof (nodes_init m D) as NI. rewrite Forall_forall in NI.
  destruct (flatten_cons m) as (d0 & rest & E0 & C0 & _).
  assert (F0 : first_node (flatten m) = d0) by (now rewrite E0). rewrite F0 in HN.
  assert (exists nr, nodes = d0 :: nr) as [nr EN].
  { specialize (HN 0%nat (f_size_pos d0)). rewrite E0 in HN. destruct nodes; cbn in HN; inversion HN; eauto. }
  assert (I0 : sto_init (f_code d0) = Some (init_sto d0)) by (apply NI; rewrite E0; now left).
  pose proof (size_le m D) as SL. rewrite F0 in SL.
  set (cells0 := cell_set 0 (false, init_sto d0) (repeat (false, SNull) (f_size d0))).
  assert (L0 : @length cell cells0 = f_size d0) by (unfold cells0, cell; now rewrite cell_set_length, repeat_length).
  assert (VN : value_new nodes = if f_code d0 =? tc_Struct then
      match new_members (f_lookup d0) nodes cells0 with
      | DOK cells' => DOK (Val nodes cells') | DThrow => DThrow | DUB => DUB | DFuel => DFuel end
    else DOK (Val nodes cells0)) by (rewrite EN; unfold value_new; rewrite I0; reflexivity).
  rewrite VN. clear VN.
  assert (CC : forall j, (j < f_size d0)%nat -> exists d, nth_error nodes j = Some d /\ sto_init (f_code d) = Some (init_sto d)).
  { intros j J. rewrite HN by exact J. destruct (nth_error (flatten m) j) as [d|] eqn:EJ.
    - exists d. split; [reflexivity|]. apply NI. eapply nth_error_In; eauto.
    - apply nth_error_None in EJ. lia. }
  destruct (Z.eqb_spec (f_code d0) tc_Struct) as [ST|NS].
  - pose proof ST as ST'. rewrite C0 in ST'.
    assert (LK : f_lookup d0 = lookup_of m) by (unfold lookup_of; now rewrite E0).
    pose proof (new_members_spec nodes (f_lookup d0) cells0) as NM. rewrite L0 in NM.
    destruct NM as [(T & n & i & I & G)|(cells' & T & LE & A & K)].
    { intros n i _ J. now apply CC. }
    + rewrite T. split; [|reflexivity]. intro S. exfalso. unfold sized in S. rewrite F0 in S.
      rewrite LK in I. apply (lookup_incl m ST') in I.
      assert (In i (map snd (plist m))) as IS by (apply in_map_iff; exists (n, i); auto).
      rewrite plist_offs in IS. apply in_seq in IS. lia.
    + rewrite T. split.
      * intro S. do 2 f_equal. apply nth_error_ext_eq. intro j. rewrite K, nth_error_map.
        unfold sized in S. rewrite F0 in S.
        assert (J0 : ~ In 0%nat (map snd (f_lookup d0))).
        { intro J. apply in_map_iff in J as ([k i] & J1 & J2). cbn in J1. subst i. rewrite LK in J2.
          apply (lookup_incl m ST') in J2. apply plist_pos in J2. lia. }
        destruct (existsb (fun p => (snd p =? j)%nat) (f_lookup d0)) eqn:X.
        -- apply existsb_exists in X as ([k i] & X1 & X2). cbn in X2. apply Nat.eqb_eq in X2. subst i.
           specialize (A k j X1). rewrite HN by exact A. destruct (nth_error (flatten m) j); reflexivity.
        -- assert (NJ : ~ In j (map snd (f_lookup d0))).
           { intro J. apply in_map_iff in J as ([k i] & J1 & J2). cbn in J1. subst i.
             assert (existsb (fun p => (snd p =? j)%nat) (f_lookup d0) = true); [|congruence].
             apply existsb_exists. exists (k, j). split; [exact J2|]. cbn. apply Nat.eqb_refl. }
           unfold cells0. rewrite cell_set_nth by (rewrite repeat_length; apply f_size_pos).
           destruct (Nat.eqb_spec j 0) as [->|J]; [now rewrite E0|].
           destruct (Nat.lt_ge_cases j (f_size d0)) as [G|G].
           ++ exfalso. apply NJ. rewrite LK.
              assert (In j (map snd (plist m))) as IJ by (rewrite plist_offs; apply in_seq; lia).
              apply in_map_iff in IJ as ([k i] & J1 & J2). cbn in J1. subst i.
              apply in_map_iff. exists (k, j). split; [reflexivity|]. apply lookup_In; auto.
              apply sized_iff; [exact D|]. unfold sized. now rewrite F0.
           ++ rewrite (proj2 (nth_error_None _ _)) by (rewrite repeat_length; exact G).
              rewrite (proj2 (nth_error_None _ _)) by lia. reflexivity.
      * intro S. exfalso. unfold sized in S. rewrite F0 in S.
        assert (2 <= length (flatten m))%nat by (pose proof (f_size_pos d0); lia).
        destruct (plist_last m ST' H) as [k I]. rewrite <- LK in I. apply A in I. lia.
  - assert (S : sized m).
    { apply sized_iff; [exact D|]. rewrite plist_not_struct by (rewrite <- C0; exact NS). constructor. }
    split; [|easy]. intros _. do 2 f_equal. unfold sized in S. rewrite F0 in S.
    assert (length (flatten m) = 1%nat).
    { destruct m as [code name id cs]. cbn [m_code] in C0. rewrite flatten_eq. destruct (is_array_of_compound code); [reflexivity|].
      rewrite flatten_plain_eq. cbv zeta. destruct (Z.eqb_spec code tc_Struct); [congruence|reflexivity]. }
    unfold cells0. rewrite S, H. rewrite E0 in *. destruct rest; [reflexivity|discriminate].
Qed.
