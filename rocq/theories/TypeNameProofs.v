(** The name tables (mlookup) of flattened types. *)
From Coq Require Import ZArith List Bool Lia ZifyBool ZifyNat Sorted Permutation.
From Verif Require Import Base BaseProofs WireModel WireSpec TypeModel TypeSpec TypeProofs.
Import ListNotations.
Local Open Scope Z_scope.

(** ** std::map *)
Definition str_lt (a b : str) : Prop := str_ltb a b = true.
Definition keys {V} (m : list (str * V)) : list str := map fst m.
Definition sorted {V} (m : list (str * V)) : Prop := StronglySorted str_lt (keys m).

Lemma map_get_set {V} k k' (v : V) m : map_get k (map_set k' v m) = if str_eqb k k' then Some v else map_get k m.
Proof.
  induction m as [|[k2 v2] m IH]; cbn [map_set map_get].
  - reflexivity.
  - destruct (str_ltb k' k2) eqn:L; cbn [map_get]; [reflexivity|].
    destruct (str_eqb k' k2) eqn:E; cbn [map_get].
    + apply str_eqb_eq in E. subst k2. destruct (str_eqb k k'); reflexivity.
    + rewrite IH. destruct (str_eqb k k2) eqn:E2; [|reflexivity].
      apply str_eqb_eq in E2. subst k2. destruct (str_eqb k k') eqn:E3; [|reflexivity].
      apply str_eqb_eq in E3. subst k'. now rewrite str_eqb_refl in E.
Qed.

Lemma map_set_keys {V} k (v : V) m x : In x (keys (map_set k v m)) <-> x = k \/ In x (keys m).
Proof.
  unfold keys. induction m as [|[k2 v2] m IH]; cbn [map_set map fst In]; [intuition congruence|].
  destruct (str_ltb k k2); cbn [map fst In]; [intuition congruence|].
  destruct (str_eqb k k2) eqn:E; cbn [map fst In].
  - apply str_eqb_eq in E. subst. intuition congruence.
  - rewrite IH. intuition congruence.
Qed.
Lemma map_set_sorted {V} k (v : V) m : sorted m -> sorted (map_set k v m).
Proof.
  unfold sorted. induction m as [|[k2 v2] m IH]; intro S; cbn [map_set].
  - cbn. constructor; constructor.
  - cbn [keys map fst] in S. inversion S as [|a b S1 S2]; subst.
    destruct (str_ltb k k2) eqn:L.
    + cbn [keys map fst]. constructor; [exact S|]. constructor; [exact L|].
      eapply Forall_impl; [|exact S2]. intros a A. unfold str_lt in *. eapply str_ltb_trans; eassumption.
    + destruct (str_eqb k k2) eqn:E.
      * apply str_eqb_eq in E. subst k2. exact S.
      * cbn [keys map fst]. constructor; [now apply IH|]. apply Forall_forall. intros x X.
        apply map_set_keys in X. destruct X as [->|X].
        -- unfold str_lt. destruct (str_ltb k2 k) eqn:L2; [reflexivity|].
           rewrite (str_ltb_total _ _ L L2) in E. now rewrite str_eqb_refl in E.
        -- rewrite Forall_forall in S2. now apply S2.
Qed.
Lemma sorted_NoDup {V} (m : list (str * V)) : sorted m -> NoDup (keys m).
Proof.
  unfold sorted. generalize (keys m). induction 1 as [|x l S IH F]; constructor; auto.
  intro I. rewrite Forall_forall in F. specialize (F x I). unfold str_lt in F. now rewrite str_ltb_irrefl in F.
Qed.
Lemma map_get_In {V} (m : list (str * V)) k v : NoDup (keys m) -> (map_get k m = Some v <-> In (k, v) m).
Proof.
  unfold keys. induction m as [|[k2 v2] m IH]; cbn [map_get map fst In]; intro N; [split; [discriminate|easy]|].
  inversion N; subst. destruct (str_eqb k k2) eqn:E.
  - apply str_eqb_eq in E. subst k2. split; intro H.
    + inversion H; auto.
    + destruct H as [H|H]; [now inversion H|]. exfalso. apply H1. apply (in_map fst) in H. exact H.
  - rewrite IH by assumption. split; [auto|]. intros [H|H]; [|exact H]. inversion H; subst. now rewrite str_eqb_refl in E.
Qed.
Lemma map_get_None {V} (m : list (str * V)) k : map_get k m = None <-> ~ In k (keys m).
Proof.
  unfold keys. induction m as [|[k2 v2] m IH]; cbn [map_get map fst In]; [intuition|].
  destruct (str_eqb k k2) eqn:E.
  - apply str_eqb_eq in E. subst. split; [discriminate|]. intro H. exfalso. apply H. now left.
  - apply str_eqb_neq in E. rewrite IH. intuition congruence.
Qed.

(** the last assignment to a key in a list of assignments *)
Fixpoint get_last {V} (k : str) (l : list (str * V)) : option V :=
  match l with
  | [] => None
  | (k', v) :: l' =>
      match get_last k l' with
      | Some x => Some x
      | None => if str_eqb k k' then Some v else None
      end
  end.
Lemma get_last_app {V} k (a b : list (str * V)) :
  get_last k (a ++ b) = match get_last k b with Some x => Some x | None => get_last k a end.
Proof.
  induction a as [|[k' v] a IH]; cbn [app get_last].
  - now destruct (get_last k b).
  - rewrite IH. destruct (get_last k b); reflexivity.
Qed.
Lemma get_last_In {V} k (l : list (str * V)) v : get_last k l = Some v -> In (k, v) l.
Proof.
  induction l as [|[k' v'] l IH]; cbn [get_last]; [discriminate|].
  destruct (get_last k l) eqn:E; intro H.
  - right. apply IH. congruence.
  - destruct (str_eqb k k') eqn:E2; [|discriminate]. apply str_eqb_eq in E2. left. congruence.
Qed.
Lemma get_last_None {V} k (l : list (str * V)) : get_last k l = None <-> ~ In k (keys l).
Proof.
  unfold keys. induction l as [|[k' v'] l IH]; cbn [get_last map fst In]; [intuition|].
  destruct (get_last k l) eqn:E.
  - split; [discriminate|]. intro H. exfalso. apply H. right. apply get_last_In in E. apply (in_map fst) in E. exact E.
  - destruct (str_eqb k k') eqn:E2.
    + apply str_eqb_eq in E2. subst. split; [discriminate|]. intro H. exfalso. apply H. now left.
    + apply str_eqb_neq in E2. rewrite <- E in *. intuition congruence.
Qed.
Lemma get_last_NoDup {V} k (l : list (str * V)) v : NoDup (keys l) -> In (k, v) l -> get_last k l = Some v.
Proof.
  intros N I. destruct (get_last k l) as [x|] eqn:E.
  - apply get_last_In in E. unfold keys in N. clear -N I E. induction l as [|[a b] l IH]; [easy|].
    cbn [map fst] in N. inversion N; subst. destruct I as [I|I], E as [E|E]; try congruence.
    + inversion I; subst. exfalso. apply H1. apply (in_map fst) in E. exact E.
    + inversion E; subst. exfalso. apply H1. apply (in_map fst) in I. exact I.
    + now apply IH.
  - apply get_last_None in E. exfalso. apply E. apply (in_map fst) in I. exact I.
Qed.

(** ** all fields of a Struct with their paths, in declaration order *)
Fixpoint plist (m : member) : list (str * nat) :=
  match m with
  | Mem code name id cs =>
      if code =? tc_Struct then
        (fix go (off : nat) (cs : list member) : list (str * nat) :=
           match cs with
           | [] => []
           | c :: cs' =>
               (m_name c, off) :: map (fun p => (m_name c ++ dot :: fst p, off + snd p)%nat) (plist c)
               ++ go (off + length (flatten c))%nat cs'
           end) 1%nat cs
      else []
  end.
Fixpoint plist_from (off : nat) (cs : list member) : list (str * nat) :=
  match cs with
  | [] => []
  | c :: cs' =>
      (m_name c, off) :: map (fun p => (m_name c ++ dot :: fst p, off + snd p)%nat) (plist c)
      ++ plist_from (off + length (flatten c))%nat cs'
  end.
Lemma plist_eq code name id cs : plist (Mem code name id cs) = if code =? tc_Struct then plist_from 1 cs else [].
Proof. reflexivity. Qed.

Lemma map_add_seq n : forall off a, map (Nat.add off) (seq a n) = seq (off + a) n.
Proof. induction n as [|n IH]; intros; cbn; [reflexivity|]. f_equal. rewrite IH. f_equal. lia. Qed.

Lemma plist_from_offs cs : Forall (fun c => map snd (plist c) = seq 1 (length (flatten c) - 1)) cs ->
  forall off, map snd (plist_from off cs) = seq off (length (kids_from true off cs)).
Proof.
  induction 1 as [|c cs H _ IH]; intro off; [reflexivity|].
  cbn [plist_from kids_from map snd]. rewrite map_app, map_map, app_length, set_parent_length. cbn [snd].
  pose proof (flatten_length c) as L.
  match goal with |- context [map ?f (plist c)] =>
    replace (map f (plist c)) with (map (Nat.add off) (map snd (plist c))) by (rewrite map_map; reflexivity) end.
  rewrite H, map_add_seq, IH.
  replace (length (flatten c) + length (kids_from true (off + length (flatten c)) cs))%nat
    with (S ((length (flatten c) - 1) + length (kids_from true (off + length (flatten c)) cs)))%nat by lia.
  cbn [seq]. f_equal. rewrite seq_app. f_equal; f_equal; lia.
Qed.
Lemma plist_offs m : map snd (plist m) = seq 1 (length (flatten m) - 1).
Proof.
  induction m as [code name id cs IH] using member_ind'. rewrite plist_eq, flatten_eq.
  destruct (Z.eqb_spec code tc_Struct) as [->|N].
  - change (is_array_of_compound tc_Struct) with false. cbv iota. rewrite flatten_plain_eq. cbv zeta.
    change (tc_Struct =? tc_Struct) with true. cbv iota. cbn [length]. rewrite Nat.sub_0_r || idtac.
    rewrite plist_from_offs by exact IH. f_equal. lia.
  - destruct (is_array_of_compound code); [reflexivity|]. rewrite flatten_plain_eq. cbv zeta.
    destruct (Z.eqb_spec code tc_Struct); [easy|]. reflexivity.
Qed.
Lemma plist_length m : (length (plist m) = length (flatten m) - 1)%nat.
Proof. rewrite <- (map_length snd), plist_offs. apply seq_length. Qed.

(** ** the lookup table *)
Definition lookup_of (m : member) : list (str * nat) := f_lookup (hd (fd_new tc_Null) (flatten m)).

Lemma lookup_struct code name id cs : code = tc_Struct -> lookup_of (Mem code name id cs) = look_from true 1 cs [].
Proof.
  intros ->. unfold lookup_of. rewrite flatten_eq. change (is_array_of_compound tc_Struct) with false. cbv iota.
  rewrite flatten_plain_eq. reflexivity.
Qed.

Fixpoint strip (name k : str) : option str :=
  match name, k with
  | [], c :: k' => if c =? dot then Some k' else None
  | [], [] => None
  | a :: name', c :: k' => if a =? c then strip name' k' else None
  | _ :: _, [] => None
  end.
Lemma strip_spec name : forall k p, strip name k = Some p <-> k = name ++ dot :: p.
Proof.
  induction name as [|a name IH]; intros k p; cbn [strip app].
  - destruct k as [|c k]; [split; discriminate|]. destruct (Z.eqb_spec c dot).
    + subst. split; intro X; inversion X; reflexivity.
    + split; intro X; inversion X; congruence.
  - destruct k as [|c k]; [split; discriminate|]. destruct (Z.eqb_spec a c).
    + subst. rewrite IH. split; intro X; inversion X; reflexivity.
    + split; intro X; inversion X; congruence.
Qed.
Lemma prefix_inj (name : str) p q : name ++ dot :: p = name ++ dot :: q -> p = q.
Proof. intro H. apply app_inv_head in H. congruence. Qed.

Lemma fold_set_get name off l : NoDup (keys l) -> forall lk k,
  map_get k (fold_left (fun m q => map_set (name ++ dot :: fst q) (off + snd q)%nat m) l lk)
  = match strip name k with
    | Some p => match map_get p l with Some j => Some (off + j)%nat | None => map_get k lk end
    | None => map_get k lk
    end.
Proof.
  unfold keys. induction l as [|[q j] l IH]; intros N lk k; cbn [fold_left map_get].
  - now destruct (strip name k).
  - cbn [map fst] in N. inversion N; subst. rewrite IH by assumption. cbn [fst snd].
    rewrite map_get_set. destruct (strip name k) as [p|] eqn:S.
    + apply strip_spec in S. subst k. destruct (str_eqb p q) eqn:E.
      * apply str_eqb_eq in E. subst q. rewrite str_eqb_refl.
        replace (map_get p l) with (@None nat); [reflexivity|]. symmetry. now apply map_get_None.
      * replace (str_eqb (name ++ dot :: p) (name ++ dot :: q)) with false; [reflexivity|].
        symmetry. apply str_eqb_neq. intro X. apply prefix_inj in X. subst. now rewrite str_eqb_refl in E.
    + replace (str_eqb k (name ++ dot :: q)) with false; [reflexivity|].
      symmetry. apply str_eqb_neq. intro X. apply strip_spec in X. congruence.
Qed.
Lemma fold_set_sorted name off l : forall lk, sorted lk ->
  sorted (fold_left (fun m (q : str * nat) => map_set (name ++ dot :: fst q) (off + snd q)%nat m) l lk).
Proof. induction l as [|q l IH]; intros lk S; cbn [fold_left]; [exact S|]. apply IH. now apply map_set_sorted. Qed.

Lemma look_child_sorted st off name cfld lk : sorted lk -> sorted (look_child st off name cfld lk).
Proof.
  intro S. unfold look_child. destruct (_ && _).
  - apply fold_set_sorted. now apply map_set_sorted.
  - now apply map_set_sorted.
Qed.
Lemma look_from_sorted st cs : forall off lk, sorted lk -> sorted (look_from st off cs lk).
Proof.
  induction cs as [|c cs IH]; intros off lk S; cbn [look_from]; [exact S|]. apply IH. now apply look_child_sorted.
Qed.
Lemma sorted_nil {V} : sorted (@nil (str * V)).
Proof. constructor. Qed.
Lemma lookup_sorted m : sorted (lookup_of m).
Proof.
  destruct m as [code name id cs]. unfold lookup_of. rewrite flatten_eq.
  destruct (is_array_of_compound code); [constructor|]. rewrite flatten_plain_eq. cbv zeta.
  destruct (code =? tc_Struct); cbn [hd f_lookup]; apply look_from_sorted, sorted_nil.
Qed.

Lemma get_last_map_prefix name off l k :
  get_last k (map (fun p : str * nat => (name ++ dot :: fst p, (off + snd p)%nat)) l)
  = match strip name k with
    | Some p => match get_last p l with Some j => Some (off + j)%nat | None => None end
    | None => None
    end.
Proof.
  induction l as [|[q j] l IH]; cbn [map get_last fst snd].
  - now destruct (strip name k).
  - rewrite IH. destruct (strip name k) as [p|] eqn:S.
    + apply strip_spec in S. subst k. destruct (get_last p l); [reflexivity|].
      destruct (str_eqb p q) eqn:E.
      * apply str_eqb_eq in E. subst. now rewrite str_eqb_refl.
      * replace (str_eqb (name ++ dot :: p) (name ++ dot :: q)) with false; [reflexivity|].
        symmetry. apply str_eqb_neq. intro X. apply prefix_inj in X. subst. now rewrite str_eqb_refl in E.
    + replace (str_eqb k (name ++ dot :: q)) with false; [reflexivity|].
      symmetry. apply str_eqb_neq. intro X. apply strip_spec in X. congruence.
Qed.

Definition lookup_ok (m : member) : Prop := m_code m = tc_Struct -> forall k, map_get k (lookup_of m) = get_last k (plist m).

Lemma plist_not_struct m : m_code m <> tc_Struct -> plist m = [].
Proof. destruct m as [code n i cs]. cbn [m_code]. intro N. rewrite plist_eq. destruct (Z.eqb_spec code tc_Struct); [easy|reflexivity]. Qed.

Lemma look_from_get cs : Forall lookup_ok cs -> forall off lk k,
  map_get k (look_from true off cs lk) = match get_last k (plist_from off cs) with Some x => Some x | None => map_get k lk end.
Proof.
  induction 1 as [|c cs H _ IH]; intros off lk k; cbn [look_from plist_from get_last]; [reflexivity|].
  rewrite IH. rewrite get_last_app. destruct (get_last k (plist_from _ cs)); [reflexivity|].
  rewrite get_last_map_prefix. unfold look_child. cbn [andb]. rewrite flatten_hd_code.
  destruct (Z.eqb_spec (m_code c) tc_Struct) as [E|E].
  - rewrite fold_set_get by apply sorted_NoDup, lookup_sorted. fold (lookup_of c).
    destruct (strip (m_name c) k) as [p|].
    + rewrite (H E). destruct (get_last p (plist c)); [reflexivity|]. rewrite map_get_set.
      destruct (str_eqb k (m_name c)); reflexivity.
    + rewrite map_get_set. destruct (str_eqb k (m_name c)); reflexivity.
  - rewrite plist_not_struct by assumption. cbn [get_last]. rewrite map_get_set.
    destruct (strip (m_name c) k), (str_eqb k (m_name c)); reflexivity.
Qed.
Lemma lookup_ok_all m : lookup_ok m.
Proof.
  induction m as [code name id cs IH] using member_ind'. intros E k. cbn [m_code] in E.
  rewrite lookup_struct by assumption. rewrite look_from_get by assumption. rewrite plist_eq, E.
  change (tc_Struct =? tc_Struct) with true. cbv iota. cbn [map_get]. now destruct (get_last k _).
Qed.

(** the table has one entry per distinct path *)
Lemma lookup_keys m : m_code m = tc_Struct -> forall k, In k (keys (lookup_of m)) <-> In k (keys (plist m)).
Proof.
  intros E k. pose proof (lookup_ok_all m E k) as L.
  destruct (map_get k (lookup_of m)) eqn:G.
  - assert (I : In k (keys (lookup_of m))).
    { destruct (in_dec (list_eq_dec Z.eq_dec) k (keys (lookup_of m))) as [I|I]; [exact I|].
      apply map_get_None in I. congruence. }
    symmetry in L. apply get_last_In in L. apply (in_map fst) in L. tauto.
  - symmetry in L. apply get_last_None in L. apply map_get_None in G. tauto.
Qed.
Lemma lookup_length_le m : m_code m = tc_Struct -> (length (lookup_of m) <= length (plist m))%nat.
Proof.
  intro E. unfold keys in *. rewrite <- (map_length fst), <- (map_length fst (plist m)).
  apply NoDup_incl_length; [apply sorted_NoDup, lookup_sorted|].
  intros k K. apply (lookup_keys m E). exact K.
Qed.
Lemma lookup_length_eq m : m_code m = tc_Struct ->
  (length (lookup_of m) = length (plist m) <-> NoDup (keys (plist m))).
Proof.
  intro E. split; intro H.
  - eapply NoDup_incl_NoDup; [exact (sorted_NoDup _ (lookup_sorted m))| |].
    + unfold keys. rewrite !map_length. lia.
    + intros k K. now apply (lookup_keys m E).
  - apply Nat.le_antisymm; [now apply lookup_length_le|].
    rewrite <- (map_length fst (plist m)), <- (map_length fst (lookup_of m)).
    apply NoDup_incl_length; [exact H|]. intros k K. apply (lookup_keys m E). exact K.
Qed.
(** with distinct paths, the table is the list of paths *)
Lemma lookup_In m : m_code m = tc_Struct -> NoDup (keys (plist m)) -> forall k i, In (k, i) (lookup_of m) <-> In (k, i) (plist m).
Proof.
  intros E N k i. rewrite <- (map_get_In (lookup_of m)) by (apply sorted_NoDup, lookup_sorted).
  rewrite (lookup_ok_all m E). split.
  - apply get_last_In.
  - now apply get_last_NoDup.
Qed.
Lemma lookup_incl m : m_code m = tc_Struct -> forall k i, In (k, i) (lookup_of m) -> In (k, i) (plist m).
Proof.
  intros E k i I. apply get_last_In. rewrite <- (lookup_ok_all m E).
  apply map_get_In; [apply sorted_NoDup, lookup_sorted|exact I].
Qed.

(** ** paths *)
Lemma all_names_children P code name id cs : all_names P (Mem code name id cs) <-> Forall (fun c => P (m_name c) /\ all_names P c) cs.
Proof.
  cbn [all_names]. induction cs as [|c cs IH]; cbn [fold_right]; split; intro H; auto.
  - destruct H as [H1 H2]. constructor; [exact H1|]. now apply IH.
  - inversion H; subst. split; [assumption|]. now apply IH.
Qed.
Lemma distinct_children code name id cs : distinct_struct_names (Mem code name id cs) <->
  (tc_scalarOf code = tc_Struct -> NoDup (map m_name cs)) /\ Forall distinct_struct_names cs.
Proof.
  cbn [distinct_struct_names]. split; intros [H1 H2]; (split; [exact H1|]); clear H1.
  - induction cs as [|c cs IH]; cbn [fold_right] in H2; constructor; tauto.
  - induction H2; cbn [fold_right]; tauto.
Qed.

Lemma set_parent_app p (a b : list fdesc) : a <> [] -> set_parent p (a ++ b) = set_parent p a ++ b.
Proof. now destruct a. Qed.

Lemma plist_pos m k i : In (k, i) (plist m) -> (1 <= i)%nat.
Proof. intro H. apply (in_map snd) in H. rewrite plist_offs in H. apply in_seq in H. cbn in H. lia. Qed.

Lemma plist_sound m : forall k i, In (k, i) (plist m) ->
  exists path d, path <> [] /\ k = join path /\ at_path m path d /\ located m i d.
Proof.
  induction m as [code name id cs IH] using member_ind'. intros k i I.
  rewrite plist_eq in I. destruct (Z.eqb_spec code tc_Struct) as [->|N]; [|easy].
  assert (G : forall cs' off pre, incl cs' cs -> length pre = off ->
    flatten (Mem tc_Struct name id cs) = pre ++ kids_from true off cs' -> In (k, i) (plist_from off cs') ->
    exists path d, path <> [] /\ k = join path /\ at_path (Mem tc_Struct name id cs) path d /\ located (Mem tc_Struct name id cs) i d).
  { induction cs' as [|c cs' IHc]; intros off pre INC L F J; [easy|]. cbn [plist_from kids_from] in *.
    assert (IC : In c cs) by (apply INC; now left).
    destruct J as [J|J].
    - inversion J; subst. exists [m_name c], c. split; [easy|]. split; [reflexivity|]. split; [now apply at_child|].
      exists pre, (length pre), (kids_from true (length pre + length (flatten c)) cs'). split; [exact F|reflexivity].
    - apply in_app_or in J. destruct J as [J|J].
      + apply in_map_iff in J. destruct J as ([q j] & E & J). cbn [fst snd] in E. inversion E; subst k i. clear E.
        rewrite Forall_forall in IH. destruct (IH c IC q j J) as (path & d & P1 & P2 & P3 & (a & p & b & A & LA)).
        exists (m_name c :: path), d. split; [easy|]. split.
        { cbn [join]. destruct path; [easy|]. now rewrite P2. }
        split.
        { apply at_deeper; auto. inversion P3; subst; auto. }
        pose proof (plist_pos _ _ _ J) as PJ.
        exists (pre ++ set_parent off a), p, (b ++ kids_from true (off + length (flatten c)) cs').
        split.
        * rewrite F. rewrite A at 1. rewrite set_parent_app by (destruct a; [cbn in LA; lia|easy]).
          now rewrite <- !app_assoc.
        * rewrite app_length, set_parent_length. lia.
      + apply (IHc (off + length (flatten c))%nat (pre ++ set_parent off (flatten c))); auto.
        * intros x X. apply INC. now right.
        * rewrite app_length, set_parent_length. lia.
        * now rewrite <- app_assoc. }
  rewrite (flatten_eq tc_Struct) in G. change (is_array_of_compound tc_Struct) with false in G. cbv iota in G.
  rewrite flatten_plain_eq in G. cbv zeta in G. change (tc_Struct =? tc_Struct) with true in G. cbv iota in G.
  eapply (G cs 1%nat [_]); [apply incl_refl|reflexivity|reflexivity|exact I].
Qed.

Lemma plist_complete m path d : at_path m path d -> path <> [] /\ exists i, In (join path, i) (plist m) /\ located m i d.
Proof.
  intro H. induction H as [m c E I|m c path d E I EC H IH].
  - split; [easy|]. destruct m as [code name id cs]. cbn [m_code m_children] in *. subst code.
    assert (G : forall cs' off pre, In c cs' -> length pre = off ->
      flatten (Mem tc_Struct name id cs) = pre ++ kids_from true off cs' ->
      exists i, In (m_name c, i) (plist_from off cs') /\ located (Mem tc_Struct name id cs) i c).
    { induction cs' as [|x cs' IHc]; intros off pre J L F; [easy|]. cbn [plist_from kids_from] in *.
      destruct J as [->|J].
      - exists off. split; [now left|]. exists pre, off, (kids_from true (off + length (flatten c)) cs'). auto.
      - destruct (IHc (off + length (flatten x))%nat (pre ++ set_parent off (flatten x)) J) as (i & A & B).
        + rewrite app_length, set_parent_length. lia.
        + now rewrite <- app_assoc.
        + exists i. split; [right; apply in_or_app; now right|exact B]. }
    rewrite plist_eq. change (tc_Struct =? tc_Struct) with true. cbv iota. cbn [join].
    rewrite (flatten_eq tc_Struct) in G. change (is_array_of_compound tc_Struct) with false in G. cbv iota in G.
    rewrite flatten_plain_eq in G. cbv zeta in G. change (tc_Struct =? tc_Struct) with true in G. cbv iota in G.
    eapply (G cs 1%nat [_]); [exact I|reflexivity|reflexivity].
  - split; [easy|]. destruct IH as (NP & j & J & (a & p & b & A & LA)).
    destruct m as [code name id cs]. cbn [m_code m_children] in *. subst code.
    pose proof (plist_pos _ _ _ J) as PJ.
    assert (G : forall cs' off pre, In c cs' -> length pre = off ->
      flatten (Mem tc_Struct name id cs) = pre ++ kids_from true off cs' ->
      exists i, In (m_name c ++ dot :: join path, i) (plist_from off cs') /\ located (Mem tc_Struct name id cs) i d).
    { induction cs' as [|x cs' IHc]; intros off pre JJ L F; [easy|]. cbn [plist_from kids_from] in *.
      destruct JJ as [->|JJ].
      - exists (off + j)%nat. split.
        + right. apply in_or_app. left. apply in_map_iff. exists (join path, j). auto.
        + exists (pre ++ set_parent off a), p, (b ++ kids_from true (off + length (flatten c)) cs').
          split.
          * rewrite F. rewrite A at 1. rewrite set_parent_app by (destruct a; [cbn in LA; lia|easy]).
            now rewrite <- !app_assoc.
          * rewrite app_length, set_parent_length. lia.
      - destruct (IHc (off + length (flatten x))%nat (pre ++ set_parent off (flatten x)) JJ) as (i & A' & B).
        + rewrite app_length, set_parent_length. lia.
        + now rewrite <- app_assoc.
        + exists i. split; [right; apply in_or_app; now right|exact B]. }
    rewrite plist_eq. change (tc_Struct =? tc_Struct) with true. cbv iota.
    replace (join (m_name c :: path)) with (m_name c ++ dot :: join path) by (destruct path; [easy|reflexivity]).
    rewrite (flatten_eq tc_Struct) in G. change (is_array_of_compound tc_Struct) with false in G. cbv iota in G.
    rewrite flatten_plain_eq in G. cbv zeta in G. change (tc_Struct =? tc_Struct) with true in G. cbv iota in G.
    eapply (G cs 1%nat [_]); [exact I|reflexivity|reflexivity].
Qed.

(** numbering of fields *)
Lemma kids_length st cs : Forall (fun c => nfields c = length (flatten c)) cs -> forall off, length (kids_from st off cs) = total_fields cs.
Proof.
  induction 1 as [|c cs H _ IH]; intro off; [reflexivity|]. cbn [kids_from]. rewrite app_length, IH. unfold total_fields. cbn [fold_right].
  rewrite H. f_equal. destruct st; [apply set_parent_length|reflexivity].
Qed.
Lemma nfields_flatten m : nfields m = length (flatten m).
Proof.
  induction m as [code name id cs IH] using member_ind'. cbn [nfields]. rewrite flatten_eq.
  destruct (Z.eqb_spec code tc_Struct) as [->|N].
  - change (is_array_of_compound tc_Struct) with false. cbv iota. rewrite flatten_plain_eq. cbv zeta.
    change (tc_Struct =? tc_Struct) with true. cbv iota. cbn [length]. rewrite (kids_length true cs IH). reflexivity.
  - destruct (is_array_of_compound code); [reflexivity|]. rewrite flatten_plain_eq. cbv zeta.
    destruct (Z.eqb_spec code tc_Struct); [easy|]. reflexivity.
Qed.
Lemma total_fields_app a b : total_fields (a ++ b) = (total_fields a + total_fields b)%nat.
Proof. unfold total_fields. induction a as [|x a IH]; cbn [app fold_right]; [reflexivity|]. rewrite IH. lia. Qed.

Lemma field_at_path m path i d : field_at m path i d -> at_path m path d.
Proof.
  intro H. induction H as [m pre c post E K|m pre c post path j d E K EC H IH].
  - apply at_child; [exact E|]. rewrite K. apply in_elt.
  - apply at_deeper; auto. rewrite K. apply in_elt.
Qed.
Lemma kids_app st a b : forall off, kids_from st off (a ++ b) = kids_from st off a ++ kids_from st (off + total_fields a) b.
Proof.
  induction a as [|x a IH]; intro off; cbn [kids_from app]; [now rewrite Nat.add_0_r|].
  rewrite IH, <- app_assoc. replace (off + total_fields (x :: a))%nat with (off + length (flatten x) + total_fields a)%nat; [reflexivity|].
  rewrite <- nfields_flatten. unfold total_fields. cbn [fold_right]. lia.
Qed.
Lemma plist_from_app a b : forall off, plist_from off (a ++ b) = plist_from off a ++ plist_from (off + total_fields a) b.
Proof.
  induction a as [|x a IH]; intro off; cbn [plist_from app]; [now rewrite Nat.add_0_r|].
  rewrite IH, <- app_assoc. replace (off + total_fields (x :: a))%nat with (off + length (flatten x) + total_fields a)%nat; [reflexivity|].
  rewrite <- nfields_flatten. unfold total_fields. cbn [fold_right]. lia.
Qed.
Lemma flatten_struct name id cs : exists d, flatten (Mem tc_Struct name id cs) = d :: kids_from true 1 cs.
Proof.
  rewrite flatten_eq. change (is_array_of_compound tc_Struct) with false. cbv iota. rewrite flatten_plain_eq. cbv zeta.
  change (tc_Struct =? tc_Struct) with true. cbv iota. eauto.
Qed.
Lemma field_at_pos m path i d : field_at m path i d -> (1 <= i)%nat.
Proof. intro H. inversion H; lia. Qed.
Lemma field_at_located m path i d : field_at m path i d -> located m i d.
Proof.
  intro H. induction H as [m pre c post E K|m pre c post path j d E K EC H IH].
  - destruct m as [code name id cs]. cbn [m_code m_children] in *. subst code cs. destruct (flatten_struct name id (pre ++ c :: post)) as (d0 & F).
    rewrite kids_app in F. cbn [kids_from] in F. eexists (d0 :: kids_from true 1 pre), _, _. split; [rewrite F; reflexivity|].
    cbn [length]. rewrite kids_length; [reflexivity|]. apply Forall_forall. intros. apply nfields_flatten.
  - pose proof (field_at_pos _ _ _ _ H) as PJ. destruct IH as (a & p & b & A & LA).
    destruct m as [code name id cs]. cbn [m_code m_children] in *. subst code cs. destruct (flatten_struct name id (pre ++ c :: post)) as (d0 & F).
    rewrite kids_app in F. cbn [kids_from] in F. rewrite A in F. rewrite set_parent_app in F by (destruct a; [cbn in LA; lia|easy]).
    eexists (d0 :: kids_from true 1 pre ++ set_parent _ a), p, _. split.
    + rewrite F. cbn [app]. rewrite <- !app_assoc. reflexivity.
    + cbn [length]. rewrite app_length, set_parent_length, kids_length; [lia|]. apply Forall_forall. intros. apply nfields_flatten.
Qed.
Lemma field_at_plist m path i d : field_at m path i d -> path <> [] /\ In (join path, i) (plist m).
Proof.
  intro H. induction H as [m pre c post E K|m pre c post path j d E K EC H IH]; (split; [easy|]);
    destruct m as [code name id cs]; cbn [m_code m_children] in *; subst code cs;
    rewrite plist_eq; change (tc_Struct =? tc_Struct) with true; cbv iota; rewrite plist_from_app; apply in_or_app; right; cbn [plist_from].
  - now left.
  - right. apply in_or_app. left. destruct IH as (NP & I). apply in_map_iff. exists (join path, j). split; [|exact I].
    cbn [fst snd join]. destruct path; [easy|]. reflexivity.
Qed.
Lemma plist_field_at m : forall k i, In (k, i) (plist m) -> exists path d, k = join path /\ field_at m path i d.
Proof.
  induction m as [code name id cs IH] using member_ind'. intros k i I.
  rewrite plist_eq in I. destruct (Z.eqb_spec code tc_Struct) as [->|N]; [|easy].
  assert (G : forall post pre, cs = pre ++ post -> In (k, i) (plist_from (1 + total_fields pre) post) ->
    exists path d, k = join path /\ field_at (Mem tc_Struct name id cs) path i d).
  { induction post as [|c post IHc]; intros pre E J; [easy|]. cbn [plist_from] in J. destruct J as [J|J].
    - injection J as <- <-. exists [m_name c], c. split; [reflexivity|]. eapply fa_child; [reflexivity|exact E].
    - apply in_app_or in J. destruct J as [J|J].
      + apply in_map_iff in J. destruct J as ([q j] & X & J). cbn [fst snd] in X. injection X as <- <-.
        rewrite Forall_forall in IH. assert (IC : In c cs) by (rewrite E; apply in_elt).
        destruct (IH c IC q j J) as (path & d & -> & P). exists (m_name c :: path), d. split.
        * cbn [join]. destruct path; [inversion P|reflexivity].
        * eapply fa_deeper; [reflexivity|exact E| |exact P]. destruct (Z.eq_dec (m_code c) tc_Struct); [assumption|].
          apply plist_not_struct in n. rewrite n in J. destruct J.
      + apply (IHc (pre ++ [c])); [rewrite E, <- app_assoc; reflexivity|]. rewrite total_fields_app.
        replace (1 + (total_fields pre + total_fields [c]))%nat with (1 + total_fields pre + length (flatten c))%nat; [exact J|].
        rewrite <- nfields_flatten. unfold total_fields. cbn [fold_right]. lia. }
  exact (G cs [] eq_refl I).
Qed.
Lemma at_path_field m path d : at_path m path d -> exists i, field_at m path i d.
Proof.
  intro H. induction H as [m c E I|m c path d E I EC H (j & IH)]; apply in_split in I; destruct I as (pre & post & K).
  - eexists. eapply fa_child; eauto.
  - eexists. eapply fa_deeper; eauto.
Qed.

(** distinct sibling names without dots give distinct paths *)
Fixpoint first_comp (k : str) : str :=
  match k with
  | [] => []
  | c :: k' => if c =? dot then [] else c :: first_comp k'
  end.
Lemma first_comp_plain n : no_dot n -> first_comp n = n.
Proof.
  unfold no_dot. induction n as [|c n IH]; cbn [first_comp In]; intro H; [reflexivity|].
  destruct (Z.eqb_spec c dot); [exfalso; apply H; now left|]. f_equal. apply IH. tauto.
Qed.
Lemma first_comp_dotted n p : no_dot n -> first_comp (n ++ dot :: p) = n.
Proof.
  unfold no_dot. induction n as [|c n IH]; cbn [first_comp In app]; intro H; [reflexivity|].
  destruct (Z.eqb_spec c dot); [exfalso; apply H; now left|]. f_equal. apply IH. tauto.
Qed.

Lemma NoDup_map_inj {A B} (f : A -> B) l : (forall x y, f x = f y -> x = y) -> NoDup l -> NoDup (map f l).
Proof.
  intros I. induction 1 as [|x l N _ IH]; cbn [map]; constructor; [|exact IH].
  intro J. apply in_map_iff in J. destruct J as (y & E & J). apply I in E. now subst.
Qed.

Lemma NoDup_app_intro {A} (a b : list A) : NoDup a -> NoDup b -> (forall x, In x a -> In x b -> False) -> NoDup (a ++ b).
Proof.
  induction 1 as [|x a N _ IH]; intros B D; cbn [app]; [exact B|]. constructor.
  - intro I. apply in_app_or in I. destruct I as [I|I]; [easy|]. apply (D x); [now left|exact I].
  - apply IH; [exact B|]. intros y Y. apply D. now right.
Qed.

Lemma plist_NoDup m : distinct_struct_names m -> all_names no_dot m -> NoDup (keys (plist m)).
Proof.
  induction m as [code name id cs IH] using member_ind'. intros D A.
  apply distinct_children in D. destruct D as [D1 D2]. apply all_names_children in A.
  rewrite plist_eq. destruct (Z.eqb_spec code tc_Struct) as [->|N]; [|constructor].
  specialize (D1 eq_refl). generalize 1%nat as off.
  induction cs as [|c cs IHc]; intro off; cbn [plist_from]; [constructor|].
  inversion D1; subst. inversion D2; subst. inversion A; subst. inversion IH; subst.
  destruct H5 as [P1 P2].
  unfold keys. cbn [map fst]. rewrite map_app, map_map. cbn [fst].
  assert (REST : forall k, In k (keys (plist_from (off + length (flatten c)) cs)) -> In (first_comp k) (map m_name cs)).
  { generalize (off + length (flatten c))%nat. clear -H6. rename H6 into A. induction cs as [|x cs IHx]; intros o k K; [easy|].
    inversion A; subst. destruct H1. cbn [plist_from keys map fst] in K. destruct K as [K|K].
    - subst k. left. now rewrite first_comp_plain.
    - rewrite map_app, map_map in K. apply in_app_or in K. destruct K as [K|K].
      + apply in_map_iff in K. destruct K as (y & E & _). cbn [fst] in E. subst k. left. now rewrite first_comp_dotted.
      + right. eapply IHx; eauto. }
  constructor.
  - intro J. apply in_app_or in J. destruct J as [J|J].
    + apply in_map_iff in J. destruct J as (y & E & _). apply (f_equal (@length Z)) in E. rewrite app_length in E. cbn [length] in E. lia.
    + apply REST in J. rewrite first_comp_plain in J by assumption. easy.
  - apply NoDup_app_intro.
    + rewrite <- (map_map fst (fun k => m_name c ++ dot :: k)). apply NoDup_map_inj.
      * intros x y. apply prefix_inj.
      * apply H7; assumption.
    + apply IHc; auto.
    + intros k K1 K2. apply in_map_iff in K1. destruct K1 as (y & E & _). apply REST in K2. subst k.
      rewrite first_comp_dotted in K2 by assumption. easy.
Qed.

Lemma plist_from_names off cs : NoDup (keys (plist_from off cs)) -> NoDup (map m_name cs).
Proof.
  revert off. induction cs as [|c cs IH]; intros off H; cbn [map]; [constructor|].
  cbn [plist_from keys map fst] in H. rewrite map_app in H. inversion H; subst.
  assert (REST : NoDup (keys (plist_from (off + length (flatten c)) cs))).
  { clear -H3. match type of H3 with NoDup (?a ++ ?b) => change (NoDup b); generalize a b H3 end. clear.
    intros a b H. induction a as [|x a IH]; [exact H|]. inversion H; subst. auto. }
  constructor; [|eapply IH; exact REST].
  intro I. apply H2. apply in_or_app. right. clear -I.
  generalize (off + length (flatten c))%nat. induction cs as [|x cs IH]; intro o; [easy|].
  cbn [plist_from map fst]. destruct I as [I|I]; [now left|]. right. rewrite map_app. apply in_or_app. right. now apply IH.
Qed.

Lemma struct_size m : m_code m = tc_Struct ->
  f_size (hd (fd_new tc_Null) (flatten m)) = (1 + length (lookup_of m))%nat.
Proof.
  destruct m as [code name id cs]. cbn [m_code]. intros ->. unfold lookup_of, f_size. rewrite flatten_eq.
  change (is_array_of_compound tc_Struct) with false. cbv iota. rewrite flatten_plain_eq. reflexivity.
Qed.
Lemma struct_assert m : m_code m = tc_Struct ->
  (length (flatten m) = f_size (hd (fd_new tc_Null) (flatten m)) <-> NoDup (keys (plist m))).
Proof.
  intro E. rewrite struct_size by assumption. rewrite <- lookup_length_eq by assumption.
  rewrite plist_length. pose proof (flatten_length m). lia.
Qed.
Lemma kids_nonnil c cs off st : is_nil (kids_from st off (c :: cs)) = false.
Proof.
  cbn [kids_from]. destruct (flatten_cons c) as (h & t & -> & _). now destruct st.
Qed.
Lemma plain_assert code id cs : code <> tc_Struct ->
  length (flatten_plain code id cs) = f_size (hd (fd_new tc_Null) (flatten_plain code id cs)).
Proof.
  intro N. rewrite flatten_plain_eq. cbv zeta. destruct (Z.eqb_spec code tc_Struct); [easy|].
  cbn [length hd]. unfold f_size. cbn [f_members f_lookup]. destruct cs as [|c cs]; [reflexivity|].
  now rewrite kids_nonnil.
Qed.
Lemma build_asserts_eq code name id cs :
  build_asserts (Mem code name id cs) =
  forallb build_asserts cs &&
  (let top := if is_array_of_compound code then flatten_plain (tc_scalarOf code) id cs else flatten_plain code id cs in
   Nat.eqb (length top) (f_size (hd (fd_new tc_Null) top))).
Proof.
  cbn [build_asserts]. change ((code =? tc_StructA) || (code =? tc_UnionA)) with (is_array_of_compound code).
  rewrite flatten_eq. destruct (is_array_of_compound code); reflexivity.
Qed.

Lemma struct_code_cases code : tc_scalarOf code = tc_Struct -> 0 <= code < 256 -> code = tc_Struct \/ code = tc_StructA.
Proof.
  intros H B.
  assert (K : forallb (fun n => let c := Z.of_nat n in
     negb (tc_scalarOf c =? tc_Struct) || (c =? tc_Struct) || (c =? tc_StructA)) (seq 0 256) = true) by (vm_compute; reflexivity).
  rewrite forallb_forall in K. specialize (K (Z.to_nat code)). rewrite in_seq in K. cbv zeta in K.
  rewrite Z2Nat.id in K by lia. specialize (K ltac:(lia)). rewrite H in K. change (tc_Struct =? tc_Struct) with true in K.
  cbn [negb orb] in K. apply orb_true_iff in K as [K|K]; apply Z.eqb_eq in K; auto.
Qed.

(** the assert at the end of build_tree() is never hit exactly when sibling
    names are distinct *)
Lemma top_assert code id cs : 0 <= code < 256 ->
  (let top := if is_array_of_compound code then flatten_plain (tc_scalarOf code) id cs else flatten_plain code id cs in
   length top = f_size (hd (fd_new tc_Null) top)) <->
  (tc_scalarOf code = tc_Struct -> NoDup (keys (plist_from 1 cs))).
Proof.
  intro B. cbv zeta. destruct (Z.eq_dec (tc_scalarOf code) tc_Struct) as [E|E].
  - pose proof (struct_assert (Mem tc_Struct [] id cs) eq_refl) as S.
    rewrite flatten_eq, plist_eq in S. change (is_array_of_compound tc_Struct) with false in S.
    change (tc_Struct =? tc_Struct) with true in S. cbv iota in S.
    destruct (struct_code_cases _ E B) as [-> | ->].
    + change (is_array_of_compound tc_Struct) with false. cbv iota. rewrite S. tauto.
    + change (is_array_of_compound tc_StructA) with true. cbv iota.
      change (tc_scalarOf tc_StructA) with tc_Struct. rewrite S. tauto.
  - split; [intros _ X; easy|]. intros _. destruct (is_array_of_compound code) eqn:A.
    + now apply plain_assert.
    + apply plain_assert. intros ->. now apply E.
Qed.

Fixpoint codes_ok (m : member) : Prop :=
  match m with
  | Mem code name id cs => 0 <= code < 256 /\ fold_right (fun c Q => codes_ok c /\ Q) True cs
  end.
Lemma codes_children code name id cs : codes_ok (Mem code name id cs) <-> 0 <= code < 256 /\ Forall codes_ok cs.
Proof.
  cbn [codes_ok]. split; intros [H1 H2]; (split; [exact H1|]); clear H1.
  - induction cs as [|c cs IH]; cbn [fold_right] in H2; constructor; tauto.
  - induction H2; cbn [fold_right]; tauto.
Qed.

Lemma build_asserts_names m : codes_ok m -> all_names no_dot m ->
  (build_asserts m = true <-> distinct_struct_names m).
Proof.
  induction m as [code name id cs IH] using member_ind'. intros C A.
  apply codes_children in C. destruct C as [C1 C2]. pose proof A as A0. apply all_names_children in A.
  rewrite build_asserts_eq, distinct_children, andb_true_iff. cbv zeta. rewrite Nat.eqb_eq.
  pose proof (top_assert code id cs C1) as T. cbv zeta in T. rewrite T.
  assert (CH : forallb build_asserts cs = true <-> Forall distinct_struct_names cs).
  { rewrite forallb_Forall. clear -IH C2 A. induction IH as [|c cs H _ IHf]; [split; constructor|].
    inversion C2; subst. inversion A; subst. destruct H4. specialize (H H2 H1).
    split; intro F; inversion F; subst; constructor; tauto. }
  rewrite CH. split; intros [H1 H2]; split; auto.
  - intro E. eapply plist_from_names. apply H2; assumption.
  - intro E.
    assert (P : NoDup (keys (plist (Mem tc_Struct name id cs)))).
    { apply plist_NoDup.
      - apply distinct_children. split; [|exact H2]. intros _. now apply H1.
      - apply all_names_children. exact A. }
    exact P.
Qed.

Lemma describable_codes m : describable m = true -> codes_ok m.
Proof.
  induction m as [code name id cs IH] using member_ind'. intro D. apply codes_children.
  destruct (describable_inv _ _ _ _ D) as [(M & W & N & F)|(M & LF & -> & ->)].
  - split; [now apply has_members_byte|]. rewrite Forall_forall in *. intros c I. apply IH; [exact I|]. now apply F.
  - split; [now apply leaf_byte|constructor].
Qed.

(** ** names *)
Lemma name_char_first c : name_char true c = true <-> is_letter c.
Proof. unfold name_char, is_letter. lia. Qed.
Lemma name_char_next c : name_char false c = true <-> is_letter c \/ is_digit c.
Proof. unfold name_char, is_letter, is_digit. lia. Qed.
Lemma name_chars_next s : name_chars false s = true <-> Forall (fun x => is_letter x \/ is_digit x) s.
Proof.
  induction s as [|c s IH]; cbn [name_chars]; [split; auto|].
  rewrite andb_true_iff, IH, name_char_next. split; [intros [? ?]; now constructor|]. inversion 1; auto.
Qed.
Lemma name_validate_identifier s : name_validate s = true <-> identifier (c_str s).
Proof.
  unfold name_validate, identifier. cbv zeta. destruct (c_str s) as [|c r]; cbn [is_nil negb andb name_chars].
  - split; [discriminate|]. intros (? & ? & ? & _). discriminate.
  - rewrite andb_true_iff, name_char_first, name_chars_next. split.
    + intros [? ?]. eauto.
    + intros (c' & r' & E & ? & ?). inversion E; subst. auto.
Qed.
Lemma c_str_id s : ~ In 0 s -> c_str s = s.
Proof.
  induction s as [|c s IH]; cbn [c_str In]; intro H; [reflexivity|].
  destruct (Z.eqb_spec c 0); [exfalso; apply H; now left|]. f_equal. apply IH. tauto.
Qed.
Lemma identifier_no_dot n : identifier n -> no_dot n.
Proof.
  intros (c & r & -> & L & F) I. unfold dot in I. destruct I as [I|I].
  - unfold is_letter in L. lia.
  - rewrite Forall_forall in F. specialize (F _ I). unfold is_letter, is_digit in F. lia.
Qed.
