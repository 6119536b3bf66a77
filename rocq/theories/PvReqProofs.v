(** Proofs about field selection. *)
From Coq Require Import String ZArith List Bool Lia ZifyBool ZifyNat Relation_Operators.
From Verif Require Import Base BaseProofs WireModel BitMaskModel BitMaskSpec BitMaskProofs TypeModel TypeSpec TypeProofs TypeNameProofs
  TextModel ValueModel ValueSpec LayoutProofs FieldProofs MarkModel MarkSpec MarkProofs PvReqModel PvReqSpec.
Import ListNotations.
Local Open Scope Z_scope.

(** a mask of [n] bits with exactly the bits in P *)
Lemma mask_is_ext m n P Q : (forall k, P k <-> Q k) -> mask_is m n P -> mask_is m n Q.
Proof. intros E (A & B & C & D). split; [exact A|]. split; [exact B|]. split; [exact C|]. intro k. now rewrite D. Qed.
Lemma mask_is_size m n P : mask_is m n P -> bm_size m = Z.of_nat n.
Proof. intros (_ & _ & A & _). exact A. Qed.
Lemma set_bits_ok m n P l : mask_is m n P -> Forall (fun i => (i < n)%nat) l ->
  exists m', set_bits m l = Some m' /\ mask_is m' n (fun k => P k \/ In k l).
Proof.
  intros (W & C & S & B) F. unfold set_bits.
  destruct (bm_set_all_ok (map Z.of_nat l) m W) as (m' & E & W' & S' & B').
  { apply Forall_map. eapply Forall_impl; [|exact F]. cbn. intros. lia. }
  assert (X : forall k, existsb (Z.eqb (Z.of_nat k)) (map Z.of_nat l) = true <-> In k l).
  { intro k. rewrite existsb_exists. split.
    - intros (x & I & E'). apply in_map_iff in I. destruct I as (j & <- & I). replace k with j by lia. exact I.
    - intro I. exists (Z.of_nat k). split; [now apply in_map|apply Z.eqb_refl]. }
  exists m'. split; [exact E|]. split; [exact W'|]. split; [|split; [lia|]].
  - intros i I. destruct W as (_ & W2 & _). rewrite B' by lia. rewrite (C i) by lia. rewrite orb_false_r.
    destruct (existsb (Z.eqb i) (map Z.of_nat l)) eqn:E'; [|reflexivity]. exfalso.
    replace i with (Z.of_nat (Z.to_nat i)) in E' by lia. apply X in E'. rewrite Forall_forall in F. specialize (F _ E'). cbn in F. lia.
  - intro k. rewrite B' by lia. rewrite orb_true_iff, X, B. tauto.
Qed.
Lemma find_set_none m n P start : mask_is m n P -> (exists r, find_set m (Z.of_nat start) = Some r /\
  (r = bm_size m <-> ~ exists k, (start <= k)%nat /\ P k)).
Proof.
  intros (W & C & S & B). destruct (find_set_ok m (Z.of_nat start) W C ltac:(lia)) as (r & E & F).
  exists r. split; [exact E|]. destruct F as [(A1 & A2 & A3 & A4)|(-> & A)].
  - split; [lia|]. intro N. exfalso. apply N. exists (Z.to_nat r). split; [lia|]. apply B. rewrite Z2Nat.id by lia. exact A3.
  - split; [|reflexivity]. intros _ (k & K & P'). apply B in P'. rewrite A in P' by lia. discriminate.
Qed.

Definition matches (desc rdesc : list fdesc) (e : str * nat) : Prop :=
  exists cr i, nth_error rdesc (snd e) = Some cr /\ f_code cr = tc_Struct /\ map_get (fst e) (f_lookup (first_node desc)) = Some i.
Definition contributes (desc rdesc : list fdesc) (e : str * nat) (k : nat) : Prop :=
  exists cr i cd, nth_error rdesc (snd e) = Some cr /\ f_code cr = tc_Struct /\
    map_get (fst e) (f_lookup (first_node desc)) = Some i /\ nth_error desc i = Some cd /\
    (k = i \/ f_lookup cr = [] /\ f_code cd = tc_Struct /\ exists p, In p (f_lookup cd) /\ k = (i + snd p)%nat).

Lemma request_loop_ok desc rdesc n :
  (forall path i, map_get path (f_lookup (first_node desc)) = Some i ->
     (i < n)%nat /\ exists cd, nth_error desc i = Some cd /\
       (f_code cd = tc_Struct -> forall p, In p (f_lookup cd) -> (i + snd p < n)%nat)) ->
  forall l, (forall e, In e l -> nth_error rdesc (snd e) <> None) ->
  forall ret found P, mask_is ret n P ->
  exists ret' found', request_loop desc rdesc l (ret, found) = DOK (ret', found') /\
    mask_is ret' n (fun k => P k \/ exists e, In e l /\ contributes desc rdesc e k) /\
    (found' = true <-> found = true \/ exists e, In e l /\ matches desc rdesc e).
Proof.
  intros A. induction l as [|e l IH]; intros B ret found P M; cbn [request_loop].
  - exists ret, found. split; [reflexivity|]. split.
    + eapply mask_is_ext; [|exact M]. intro k. split; [auto|]. intros [H|(e & [] & _)]. exact H.
    + split; [auto|]. intros [H|(e & [] & _)]. exact H.
  - assert (ST : exists ret1 found1, request_entry desc rdesc e (ret, found) = DOK (ret1, found1) /\
      mask_is ret1 n (fun k => P k \/ contributes desc rdesc e k) /\ (found1 = true <-> found = true \/ matches desc rdesc e)).
    { destruct e as [path j]. unfold request_entry, contributes, matches. cbn [fst snd].
      destruct (nth_error rdesc j) as [cr|] eqn:EJ; [|exfalso; exact (B (path, j) (or_introl eq_refl) EJ)].
      destruct (Z.eqb_spec (f_code cr) tc_Struct) as [CS|CS].
      2:{ exists ret, found. split; [reflexivity|]. split.
          - eapply mask_is_ext; [|exact M]. intro k. split; [auto|]. intros [H|(cr' & i & cd & E1 & E2 & _)]; [exact H|congruence].
          - split; [auto|]. intros [H|(cr' & i & E1 & E2 & _)]; [exact H|congruence]. }
      destruct (map_get path (f_lookup (first_node desc))) as [i|] eqn:G.
      2:{ exists ret, found. split; [reflexivity|]. split.
          - eapply mask_is_ext; [|exact M]. intro k. split; [auto|]. intros [H|(cr' & i & cd & E1 & E2 & E3 & _)]; [exact H|congruence].
          - split; [auto|]. intros [H|(cr' & i & E1 & E2 & E3)]; [exact H|congruence]. }
      destruct (A path i G) as (IN & cd & ED & SUB).
      destruct (set_bits_ok ret n P [i] M ltac:(constructor; auto)) as (ret1 & S1 & M1). rewrite S1.
      assert (FD : true = true <-> found = true \/ (exists cr0 i0, Some cr = Some cr0 /\ f_code cr0 = tc_Struct /\ Some i = Some i0)).
      { split; [|auto]. intros _. right. exists cr, i. auto. }
      destruct (f_lookup cr) as [|q lr] eqn:LR; cbn [is_nil].
      + rewrite ED. destruct (Z.eqb_spec (f_code cd) tc_Struct) as [DS|DS].
        * destruct (set_bits_ok ret1 n _ (map (fun p => (i + snd p)%nat) (f_lookup cd)) M1) as (ret2 & S2 & M2).
          { apply Forall_map, Forall_forall. intros p I. exact (SUB DS p I). }
          rewrite S2. exists ret2, true. split; [reflexivity|]. split; [|exact FD]. eapply mask_is_ext; [|exact M2]. intro k. cbn [In]. split.
          -- intros [[H|[<-|[]]]|H]; [auto| |].
             ++ right. exists cr, i, cd. auto 6.
             ++ apply in_map_iff in H. destruct H as (p & <- & I). right. exists cr, i, cd. repeat split; auto. right. split; [exact LR|]. split; [exact DS|]. eauto.
          -- intros [H|(cr' & i' & cd' & E1 & E2 & E3 & E4 & [->|(_ & _ & p & I & ->)])]; [auto| |].
             ++ left. right. left. congruence.
             ++ right. apply in_map_iff. exists p. replace cd' with cd in * by congruence. replace i' with i by congruence. auto.
        * exists ret1, true. split; [reflexivity|]. split; [|exact FD]. eapply mask_is_ext; [|exact M1]. intro k. cbn [In]. split.
          -- intros [H|[<-|[]]]; [auto|]. right. exists cr, i, cd. auto 6.
          -- intros [H|(cr' & i' & cd' & E1 & E2 & E3 & E4 & [->|(_ & X & _)])]; [auto| |].
             ++ right. left. congruence.
             ++ congruence.
      + exists ret1, true. split; [reflexivity|]. split; [|exact FD]. eapply mask_is_ext; [|exact M1]. intro k. cbn [In]. split.
        -- intros [H|[<-|[]]]; [auto|]. right. exists cr, i, cd. auto 6.
        -- intros [H|(cr' & i' & cd' & E1 & E2 & E3 & E4 & [->|(X & _)])]; [auto| |].
           ++ right. left. congruence.
           ++ congruence. }
    destruct ST as (ret1 & found1 & -> & M1 & F1).
    destruct (IH (fun e' I => B e' (or_intror I)) ret1 found1 _ M1) as (ret2 & found2 & E & M2 & F2).
    exists ret2, found2. split; [exact E|]. split.
    + eapply mask_is_ext; [|exact M2]. intro k. cbn [In]. split.
      * intros [[H|H]|(e' & I & H)]; eauto.
      * intros [H|(e' & [<-|I] & H)]; eauto.
    + rewrite F2, F1. cbn [In]. split.
      * intros [[H|H]|(e' & I & H)]; eauto.
      * intros [H|(e' & [<-|I] & H)]; eauto.
Qed.

Lemma init_ok n : (1 <= n)%nat -> Z.of_nat n < 2 ^ 16 -> exists m, bm_init [0] (Z.of_nat n) = Some m /\ mask_is m n (fun k => k = 0%nat).
Proof.
  intros H H'. unfold bm_init. cbn [fold_right]. replace (Z.max (Z.of_nat n) (1 + Z.max 0 0)) with (Z.of_nat n) by lia.
  destruct (wf_fresh (Z.of_nat n) ltac:(lia)) as (W & S).
  assert (M0 : mask_is (bm_resize (Z.of_nat n) bm_empty) n (fun _ => False)).
  { split; [exact W|]. split; [intros i _; apply mbit_fresh; lia|]. split; [exact S|]. intro k. rewrite mbit_fresh by lia. split; [discriminate|tauto]. }
  destruct (set_bits_ok _ n _ [0%nat] M0 ltac:(constructor; [lia|constructor])) as (m & E & M).
  exists m. split; [exact E|]. eapply mask_is_ext; [|exact M]. intro k. cbn [In]. intuition lia.
Qed.

(** the end of request2mask() *)
Definition finish (n : nat) (r : dres (bmask * bool)) : dres bmask :=
  match r with
  | DOK (ret, found) =>
      if negb found then DThrow
      else
        match find_set ret 1 with
        | None => DUB
        | Some k => if k =? bm_size ret then match set_bits ret (seq 0 n) with Some ret' => DOK ret' | None => DUB end else DOK ret
        end
  | DThrow => DThrow | DUB => DUB | DFuel => DFuel
  end.
Lemma finish_none n ret found P : mask_is ret n P -> ~ (exists k, (1 <= k)%nat /\ P k) -> found = true -> (forall k, P k -> (k < n)%nat) ->
  exists m, finish n (DOK (ret, found)) = DOK m /\ mask_is m n (fun k => (k < n)%nat).
Proof.
  intros M N -> B. cbn [finish negb]. destruct (find_set_none ret n P 1 M) as (r & E & F). change (Z.of_nat 1) with 1 in E. rewrite E.
  rewrite (proj2 (Z.eqb_eq _ _) (proj2 F N)).
  destruct (set_bits_ok ret n P (seq 0 n) M) as (m & S & M'); [apply Forall_forall; intros x I; apply in_seq in I; lia|]. rewrite S.
  exists m. split; [reflexivity|]. eapply mask_is_ext; [|exact M']. intro k. cbn beta. rewrite (in_seq n 0 k). split; [intros [H|H]; [auto|lia]|lia].
Qed.
Lemma finish_some n ret P : mask_is ret n P -> (exists k, (1 <= k)%nat /\ P k) -> finish n (DOK (ret, true)) = DOK ret.
Proof.
  intros M N. cbn [finish negb]. destruct (find_set_none ret n P 1 M) as (r & E & F). change (Z.of_nat 1) with 1 in E. rewrite E.
  destruct (Z.eqb_spec r (bm_size ret)) as [H|H]; [|reflexivity]. exfalso. apply F in H. exact (H N).
Qed.

Lemma first_node_lookup m : f_lookup (first_node (flatten m)) = lookup_of m.
Proof. reflexivity. Qed.
(** the type: names lead into the node array *)
Lemma desc_side m : good_type m -> m_code m = tc_Struct ->
  forall path i, map_get path (f_lookup (first_node (flatten m))) = Some i ->
     (i < nfields m)%nat /\ exists cd, nth_error (flatten m) i = Some cd /\
       (f_code cd = tc_Struct -> forall p, In p (f_lookup cd) -> (i + snd p < nfields m)%nat).
Proof.
  intros G S path i H. destruct (lookup_field_only m path i S H) as (p & d & _ & F). pose proof (field_at_sub_bound _ _ _ _ F) as SB.
  split; [pose proof (field_at_bound _ _ _ _ F); lia|]. destruct (located_node m i d (field_at_located _ _ _ _ F)) as (cd & E & C & L & _).
  exists cd. split; [exact E|]. intros CS q I. rewrite L in I. rewrite C in CS.
  pose proof (proj1 (lookup_offs d (snd q) (field_at_good _ _ _ _ F G) CS)) as O. specialize (O (ex_intro _ q (conj I eq_refl))). lia.
Qed.

Lemma set_parent_hd_lookup p l rest : l <> [] -> f_lookup (first_node (set_parent p l ++ rest)) = f_lookup (first_node l)
  /\ f_code (first_node (set_parent p l ++ rest)) = f_code (first_node l).
Proof. destruct l as [|d r]; [easy|]. auto. Qed.

(** what "field" of the request is *)
Lemma request_fields_some q rt i : good_type q -> field_at q [bs "field"] i rt ->
  request_fields (flatten q) = Some (skipn i (flatten q)) /\
  f_code (first_node (skipn i (flatten q))) = m_code rt /\ f_lookup (first_node (skipn i (flatten q))) = lookup_of rt /\
  forall j, (1 <= j < nfields rt)%nat -> nth_error (skipn i (flatten q)) j = nth_error (flatten rt) j.
Proof.
  intros G F. assert (S : m_code q = tc_Struct) by (inversion F; assumption). split.
  - unfold request_fields. pose proof (flatten_hd_code q) as HC. pose proof (lookup_field q _ i rt G S F) as LK. unfold lookup_of in LK.
    destruct (flatten q) as [|d r] eqn:E; [pose proof (flatten_length q); rewrite E in *; cbn in *; lia|]. cbn [hd] in *.
    rewrite HC, S. change (tc_Struct =? tc_Struct) with true. cbv iota. change (join [bs "field"]) with (bs "field") in LK. now rewrite LK.
  - pose proof (field_at_located _ _ _ _ F) as L. destruct L as (pre & p & post & E & LP).
    assert (SK : skipn i (flatten q) = set_parent p (flatten rt) ++ post).
    { rewrite E, <- LP. rewrite skipn_app, skipn_all, Nat.sub_diag. reflexivity. }
    rewrite SK. assert (NN : flatten rt <> []) by (pose proof (flatten_length rt); destruct (flatten rt); [cbn in *; lia|easy]).
    destruct (set_parent_hd_lookup p (flatten rt) post NN) as (A & B). rewrite A, B.
    split; [apply flatten_hd_code|]. split; [reflexivity|]. intros j J. rewrite nfields_flatten in J.
    rewrite nth_error_app1 by (rewrite set_parent_length; lia). destruct j; [lia|]. apply nth_error_set_parent.
Qed.
Lemma request_fields_none q : good_type q -> ~ (exists rt, asks q rt) -> request_fields (flatten q) = None.
Proof.
  intros G N. unfold request_fields. pose proof (flatten_hd_code q) as HC. destruct (flatten q) as [|d r] eqn:E; [reflexivity|]. cbn [hd] in HC. rewrite HC.
  destruct (Z.eqb_spec (m_code q) tc_Struct) as [S|]; [|reflexivity]. destruct (map_get (bs "field") (f_lookup d)) as [i|] eqn:MG; [|reflexivity].
  exfalso. apply N. assert (LK : map_get (bs "field") (lookup_of q) = Some i) by (unfold lookup_of; rewrite E; exact MG).
  destruct (lookup_field_only q _ i S LK) as (path & rt & J & F). exists rt, i.
  assert (path = [bs "field"]) as ->; [|exact F]. symmetry. destruct G as (_ & _ & ND). apply join_inj; auto.
  - constructor; [|constructor]. intro H. cbn in H. unfold dot in H. intuition discriminate.
  - eapply field_at_no_dot; eauto.
  - easy.
  - intros ->. inversion F.
Qed.

(** the entries of the request which match, in terms of names *)
Lemma lookup_of_nil m : m_code m = tc_Struct -> (lookup_of m = [] <-> m_children m = []).
Proof.
  intro S. split; intro H.
  - destruct m as [code name id cs]. cbn [m_code m_children] in *. subst code. destruct cs as [|c cs]; [reflexivity|]. exfalso.
    assert (I : In (m_name c) (keys (lookup_of (Mem tc_Struct name id (c :: cs))))).
    { apply lookup_keys; [reflexivity|]. rewrite plist_eq. change (tc_Struct =? tc_Struct) with true. cbv iota. cbn. auto. }
    rewrite H in I. destruct I.
  - destruct m as [code name id cs]. cbn [m_code m_children] in *. subst. rewrite lookup_struct by reflexivity. reflexivity.
Qed.
Lemma entry_names m rt (G : good_type m) (Gr : good_type rt) (S : m_code m = tc_Struct) (Sr : m_code rt = tc_Struct) rdesc :
  (forall j, (1 <= j < nfields rt)%nat -> nth_error rdesc j = nth_error (flatten rt) j) ->
  (forall k, (exists e, In e (lookup_of rt) /\ contributes (flatten m) rdesc e k) <-> chosen m rt k) /\
  ((exists e, In e (lookup_of rt) /\ matches (flatten m) rdesc e) <-> exists k, chosen m rt k).
Proof.
  intros R.
  assert (ENT : forall key j, In (key, j) (lookup_of rt) -> exists path r cr, key = join path /\ field_at rt path j r /\
    nth_error rdesc j = Some cr /\ f_code cr = m_code r /\ f_lookup cr = lookup_of r).
  { intros key j I. apply lookup_incl in I; [|exact Sr]. destruct (plist_field_at rt key j I) as (path & r & -> & F).
    destruct (located_node rt j r (field_at_located _ _ _ _ F)) as (cr & E & C & L & _). exists path, r, cr.
    rewrite R by (eapply field_at_bound; eauto). auto. }
  assert (SAME : forall path path' r r' j j', field_at rt path j r -> field_at m path' j' r' -> join path = join path' -> path = path').
  { intros path path' r r' j j' F F' E. destruct Gr as (_ & _ & N1). destruct G as (_ & _ & N2). apply join_inj; auto.
    - eapply field_at_no_dot; eauto.
    - eapply field_at_no_dot; eauto.
    - intros ->. inversion F.
    - intros ->. inversion F'. }
  assert (MAIN : forall k, (exists e, In e (lookup_of rt) /\ contributes (flatten m) rdesc e k) <-> chosen m rt k).
  { intro k. split.
    - intros ((key, j) & I & (cr & i & cd & E1 & E2 & E3 & E4 & H)). cbn [fst snd] in *.
      destruct (ENT key j I) as (path & r & cr' & -> & F & E5 & C & L). rewrite E1 in E5. injection E5 as <-.
      destruct (lookup_field_only m _ i S E3) as (path' & d & J & FM). assert (path = path') as <- by (eapply SAME; eauto).
      exists path, (is_nil (m_children r)), i, d. rewrite C in E2. split; [|split; [exact FM|]].
      + exists j, r. split; [exact F|]. split; [exact E2|]. destruct (m_children r); cbn; split; easy.
      + destruct H as [->|(LN & CS & p & IP & ->)]; [now left|]. right. rewrite L in LN. apply (lookup_of_nil r E2) in LN. rewrite LN.
        split; [reflexivity|]. rewrite (field_inside_iff m _ i d _ G FM).
        destruct (located_node m i d (field_at_located _ _ _ _ FM)) as (cd' & E6 & C6 & L6 & _). rewrite E4 in E6. injection E6 as <-.
        rewrite L6 in IP. rewrite C6 in CS. pose proof (proj1 (lookup_offs d (snd p) (field_at_good _ _ _ _ FM G) CS)) as O.
        specialize (O (ex_intro _ p (conj IP eq_refl))). lia.
    - intros (path & whole & i & d & (j & r & F & C & W) & FM & H).
      assert (I : In (join path, j) (lookup_of rt)). { apply map_get_In; [apply sorted_NoDup, lookup_sorted|]. eapply lookup_field; eauto. }
      exists (join path, j). split; [exact I|]. destruct (located_node rt j r (field_at_located _ _ _ _ F)) as (cr & E & CC & L & _).
      destruct (located_node m i d (field_at_located _ _ _ _ FM)) as (cd & E6 & C6 & L6 & _).
      exists cr, i, cd. cbn [fst snd]. rewrite R by (eapply field_at_bound; eauto). split; [exact E|]. split; [congruence|].
      split; [exact (lookup_field m path i d G S FM)|]. split; [exact E6|]. destruct H as [->|(-> & IN)]; [now left|]. right.
      split; [rewrite L; apply (lookup_of_nil r C); apply W; reflexivity|].
      destruct (field_inside_path m path i d k G FM IN) as (_ & _ & _ & _ & DS). split; [congruence|].
      rewrite L6. apply (field_inside_iff m path i d k G FM) in IN.
      destruct (proj2 (lookup_offs d (k - i) (field_at_good _ _ _ _ FM G) DS) ltac:(lia)) as (p & IP & SP). exists p. split; [exact IP|lia]. }
  split; [exact MAIN|]. split.
  - intros ((key, j) & I & cr & i & E1 & E2 & E3). cbn [fst snd] in *. destruct (desc_side m G S key i E3) as (_ & cd & E4 & _).
    exists i. apply MAIN. exists (key, j). split; [exact I|]. exists cr, i, cd. cbn [fst snd]. auto 8.
  - intros (k & CH). apply MAIN in CH. destruct CH as (e & I & (cr & i & cd & E1 & E2 & E3 & _)). exists e. split; [exact I|]. exists cr, i. auto.
Qed.
Lemma chosen_bound m rt k : good_type m -> chosen m rt k -> (1 <= k < nfields m)%nat.
Proof.
  intros G (path & whole & i & d & _ & F & [->|(_ & I)]); [eapply field_at_bound; eauto|].
  apply (field_inside_iff m path i d k G F) in I. pose proof (field_at_sub_bound _ _ _ _ F). pose proof (field_at_bound _ _ _ _ F). lia.
Qed.

Lemma request2mask_eq desc req : request2mask desc req =
  let n := f_size (first_node desc) in
  match bm_init [0] (Z.of_nat n) with
  | None => DUB
  | Some ret0 =>
      finish n match request_fields req with
        | None => DOK (ret0, true)
        | Some rdesc =>
            if f_code (first_node rdesc) =? tc_Struct then
              request_loop desc rdesc (f_lookup (first_node rdesc)) (ret0, is_nil (f_lookup (first_node rdesc)))
            else DOK (ret0, false)
        end
  end.
Proof. reflexivity. Qed.

Section Request.
Context (m q : member) (G : good_type m) (S : m_code m = tc_Struct) (SMALL : Z.of_nat (nfields m) < 2 ^ 16) (Gq : good_type q).

Lemma size_m : f_size (first_node (flatten m)) = nfields m.
Proof. rewrite nfields_flatten. now apply good_size. Qed.

Lemma no_list_all : ~ (exists rt, asks q rt) -> exists mask, request2mask (flatten m) (flatten q) = DOK mask /\ mask_is mask (nfields m) (fun k => (k < nfields m)%nat).
Proof.
  intro N. rewrite request2mask_eq. cbv zeta. rewrite size_m. destruct (init_ok (nfields m) (nfields_pos m) SMALL) as (ret0 & -> & M).
  rewrite (request_fields_none q Gq N). eapply finish_none; [exact M| |reflexivity|].
  - intros (k & K & ->). lia.
  - intros k ->. pose proof (nfields_pos m). lia.
Qed.
Lemma not_list_refused rt : asks q rt -> m_code rt <> tc_Struct -> request2mask (flatten m) (flatten q) = DThrow.
Proof.
  intros (i & F) N. rewrite request2mask_eq. cbv zeta. rewrite size_m. destruct (init_ok (nfields m) (nfields_pos m) SMALL) as (ret0 & -> & M).
  destruct (request_fields_some q rt i Gq F) as (-> & C & _). rewrite C. now rewrite (proj2 (Z.eqb_neq _ _) N).
Qed.
Lemma list_ok rt : asks q rt -> m_code rt = tc_Struct ->
  exists ret found, request2mask (flatten m) (flatten q) = finish (nfields m) (DOK (ret, found)) /\
    mask_is ret (nfields m) (fun k => k = 0%nat \/ chosen m rt k) /\
    (found = true <-> m_children rt = [] \/ exists k, chosen m rt k).
Proof.
  intros (i & F) C. rewrite request2mask_eq. cbv zeta. rewrite size_m. destruct (init_ok (nfields m) (nfields_pos m) SMALL) as (ret0 & -> & M).
  destruct (request_fields_some q rt i Gq F) as (-> & C' & L & R). rewrite C', C, L. change (tc_Struct =? tc_Struct) with true. cbv iota.
  set (rdesc := skipn i (flatten q)) in *. pose proof (field_at_good _ _ _ _ F Gq) as Gr.
  destruct (request_loop_ok (flatten m) rdesc (nfields m) (desc_side m G S) (lookup_of rt)) with (ret := ret0) (found := is_nil (lookup_of rt)) (P := fun k => k = 0%nat)
    as (ret & found & -> & M' & F').
  - intros (key & j) I. cbn [snd]. assert (J : (1 <= j < nfields rt)%nat). { apply (lookup_offs rt j Gr C). exists (key, j). auto. }
    rewrite R by exact J. intro NE. apply nth_error_None in NE. rewrite <- nfields_flatten in NE. lia.
  - exact M.
  - destruct (entry_names m rt G Gr S C rdesc R) as (E1 & E2). exists ret, found. split; [reflexivity|]. split.
    + eapply mask_is_ext; [|exact M']. intro k. cbn beta. now rewrite E1.
    + rewrite F', E2. rewrite <- (lookup_of_nil rt C). destruct (lookup_of rt); cbn [is_nil]; intuition discriminate.
Qed.
Lemma empty_list_all rt : asks q rt -> m_code rt = tc_Struct -> m_children rt = [] ->
  exists mask, request2mask (flatten m) (flatten q) = DOK mask /\ mask_is mask (nfields m) (fun k => (k < nfields m)%nat).
Proof.
  intros A C E. destruct (list_ok rt A C) as (ret & found & -> & M & F).
  assert (NC : ~ exists k, chosen m rt k).
  { intros (k & path & w & i & d & (j & r & FR & _) & _). destruct (field_at_inv _ _ _ _ FR) as (pre & ? & ? & _ & K & _). rewrite E in K. now destruct pre. }
  eapply finish_none; [exact M| |apply F; auto|].
  - intros (k & K & [->|H]); [lia|]. apply NC. eauto.
  - intros k [->|H]; [pose proof (nfields_pos m); lia|]. apply chosen_bound in H; [lia|exact G].
Qed.
Lemma list_chosen rt : asks q rt -> m_code rt = tc_Struct -> (exists k, chosen m rt k) ->
  exists mask, request2mask (flatten m) (flatten q) = DOK mask /\ mask_is mask (nfields m) (fun k => k = 0%nat \/ chosen m rt k).
Proof.
  intros A C (k & K). destruct (list_ok rt A C) as (ret & found & -> & M & F). assert (found = true) as -> by (apply F; eauto).
  exists ret. split; [|exact M]. apply finish_some with (P := fun k => k = 0%nat \/ chosen m rt k); [exact M|].
  exists k. split; [apply chosen_bound in K; [lia|exact G]|auto].
Qed.
Lemma list_unknown rt : asks q rt -> m_code rt = tc_Struct -> m_children rt <> [] -> ~ (exists k, chosen m rt k) ->
  request2mask (flatten m) (flatten q) = DThrow.
Proof.
  intros A C N NC. destruct (list_ok rt A C) as (ret & found & -> & M & F). destruct found; [exfalso; destruct (proj1 F eq_refl); auto|reflexivity].
Qed.
End Request.

(** any request a peer can send *)
Lemma request_hostile m q : good_type m -> m_code m = tc_Struct -> Z.of_nat (nfields m) < 2 ^ 16 -> describable q = true ->
  match request2mask (flatten m) (flatten q) with
  | DOK mask => exists P, mask_is mask (nfields m) P /\ P 0%nat /\ forall k, P k -> (k < nfields m)%nat
  | DThrow => True
  | DUB | DFuel => False
  end.
Proof.
  intros G S SMALL D. rewrite request2mask_eq. cbv zeta. rewrite size_m by exact G. destruct (init_ok (nfields m) (nfields_pos m) SMALL) as (ret0 & -> & M).
  assert (FIN : forall ret found P, mask_is ret (nfields m) P -> P 0%nat -> (forall k, P k -> (k < nfields m)%nat) ->
    match finish (nfields m) (DOK (ret, found)) with
    | DOK mask => exists P, mask_is mask (nfields m) P /\ P 0%nat /\ forall k, P k -> (k < nfields m)%nat
    | DThrow => True | DUB | DFuel => False end).
  { intros ret found P M' P0 PB. destruct found; [|exact I]. cbn [finish negb]. destruct (find_set_none ret _ P 1 M') as (r & E & F). change (Z.of_nat 1) with 1 in E. rewrite E.
    destruct (r =? bm_size ret); [|exists P; auto].
    destruct (set_bits_ok ret _ P (seq 0 (nfields m)) M') as (m' & -> & M2); [apply Forall_forall; intros x I; apply in_seq in I; lia|].
    eexists. split; [exact M2|]. split; [now left|]. cbn beta. intros k [H|H]; [auto|]. apply in_seq in H. lia. }
  assert (P0 : (0 < nfields m)%nat) by (pose proof (nfields_pos m); lia).
  destruct (request_fields (flatten q)) as [rdesc|] eqn:RF; [|eapply FIN; [exact M|reflexivity|intros k ->; exact P0]].
  destruct (Z.eqb_spec (f_code (first_node rdesc)) tc_Struct) as [C|C]; [|eapply FIN; [exact M|reflexivity|intros k ->; exact P0]].
  destruct (request_loop_ok (flatten m) rdesc (nfields m) (desc_side m G S) (f_lookup (first_node rdesc))) with (ret := ret0) (found := is_nil (f_lookup (first_node rdesc))) (P := fun k => k = 0%nat)
    as (ret & found & -> & M' & _).
  - unfold request_fields in RF. destruct (flatten q) as [|d0 r0] eqn:FQ; [discriminate|]. destruct (f_code d0 =? tc_Struct) eqn:C0; [|discriminate].
    destruct (map_get (bs "field") (f_lookup d0)) as [i|] eqn:MG; [|discriminate]. injection RF as <-.
    rewrite <- FQ in *. intros (key & j) I. cbn [snd]. rewrite nth_error_skipn_add.
    unfold first_node in I. destruct (skipn i (flatten q)) as [|dn rn] eqn:SK; [cbn in C; discriminate|]. cbn [hd] in *.
    assert (NI : nth_error (flatten q) i = Some dn).
    { replace i with (i + 0)%nat by lia. rewrite <- nth_error_skipn_add, SK. reflexivity. }
    pose proof (wf_vec_nodes _ (flatten_wf q D) i dn NI) as W. cbn [first_node hd] in C. inversion W; subst.
    + rewrite C in H. discriminate.
    + rewrite C in H. discriminate.
    + destruct (H2 _ _ I) as (J1 & J2). intro NE. apply nth_error_None in NE. lia.
    + rewrite C in H. discriminate.
  - exact M.
  - eapply FIN; [exact M'|now left|]. cbn beta. intros k [->|((key, j) & I & (cr & i & cd & E1 & E2 & E3 & E4 & H))]; [exact P0|]. cbn [fst snd] in *.
    destruct (desc_side m G S key i E3) as (B & cd' & E5 & B'). rewrite E4 in E5. injection E5 as <-.
    destruct H as [->|(_ & CS & p & IP & ->)]; [exact B|]. now apply B'.
Qed.

(** a chosen field comes with everything around it *)
Lemma chosen_around m rt j k : good_type m -> good_type rt -> chosen m rt k -> is_inside (flatten m) j k -> j = 0%nat \/ chosen m rt j.
Proof.
  intros G Gr (path & whole & i & d & NM & F & H) IN. destruct j as [|j']; [now left|]. right. set (j := Datatypes.S j') in *.
  assert (JB : (j < k /\ j < nfields m)%nat).
  { pose proof (inside_lt _ _ _ (good_lay m G) IN). pose proof (inside_bound _ _ _ (good_lay m G) IN). rewrite <- nfields_flatten in *. lia. }
  destruct (field_at_total m j ltac:(lia)) as (pj & dj & FJ).
  destruct (Nat.eq_dec j i) as [->|NE]; [exists path, whole, i, d; auto|].
  assert (CASE : is_inside (flatten m) j i \/ (whole = true /\ is_inside (flatten m) i j)).
  { destruct H as [->|(W & IK)]; [now left|]. apply (field_inside_iff m pj j dj _ G FJ) in IN. apply (field_inside_iff m path i d _ G F) in IK.
    destruct (Nat.lt_ge_cases i j); [right; split; [exact W|]; apply (field_inside_iff m path i d _ G F); lia|].
    left. apply (field_inside_iff m pj j dj _ G FJ). lia. }
  destruct CASE as [IJ|(W & IJ)]; [|exists path, whole, i, d; auto].
  destruct (field_inside_path m pj j dj i G FJ IJ) as (q & e & QN & FQ & _). destruct (field_at_unique _ _ _ _ F _ _ FQ) as (<- & <-).
  destruct NM as (jr & r & FR & CR & WR). assert (PN : pj <> []) by (intros ->; inversion FJ).
  destruct (field_at_prefix pj rt q jr r FR PN QN) as (jr' & r' & FR' & CR' & NC). exists pj, false, j, dj. split; [|split; [exact FJ|now left]].
  exists jr', r'. split; [exact FR'|]. split; [exact CR'|]. split; [discriminate|]. intro X. contradiction.
Qed.

Lemma testmask_loop_ok cells mask n P l : mask_is mask n P -> Forall (fun i => (i < n)%nat) l ->
  exists b, testmask_loop cells mask l = Some b /\ (b = true <-> exists k, In k l /\ marked cells k /\ P k).
Proof.
  intros M F. destruct M as (W & C & S & B). induction F as [|i l H F IH]; cbn [testmask_loop In].
  - exists false. split; [reflexivity|]. split; [discriminate|]. intros (k & [] & _).
  - destruct IH as (b & E & IH). pose proof (marked_at_iff cells i) as MA. destruct (marked_at cells i).
    + rewrite bm_get_ok; [|exact W|lia]. destruct (mbit mask (Z.of_nat i)) eqn:MB.
      * exists true. split; [reflexivity|]. split; [|reflexivity]. intros _. exists i. apply B in MB. split; [auto|]. split; [apply MA; reflexivity|exact MB].
      * exists b. split; [exact E|]. rewrite IH. split.
        -- intros (k & I & X). eauto.
        -- intros (k & [<-|I] & X & Y); [apply B in Y; congruence|eauto].
    + exists b. split; [exact E|]. rewrite IH. split.
      * intros (k & I & X). eauto.
      * intros (k & [<-|I] & X & Y); [apply MA in X; discriminate|eauto].
Qed.
