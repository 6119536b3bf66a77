(** Metadata and structure fields in the type of a group; groups of a configuration. *)
From Coq Require Import String ZArith List Bool Lia ZifyBool ZifyNat Sorting.Permutation Sorting.Sorted.
From Verif Require Import Base BaseProofs WireModel TypeModel TextModel TextSpec TextProofs ValueModel MarkModel CopyModel NtModel
  TypeSpec TypeProofs TypeNameProofs TypeDefProofs NtSpec NtProofs NtProps GroupModel GroupSpec GroupProofs GroupProofs3 GroupProofs4 GroupProofs5 GroupProofs6 GroupProofs7.
Import ListNotations.
Local Open Scope Z_scope.

Lemma meta_part db x f mf q m0 : made db x f -> tidy x -> fc_type (snd x) = MMeta -> field_members f = OK mf ->
  q <> [] -> member_at meta_members q = Some m0 ->
  neat_list mf /\ has_path mf (names_of (cf_path f) ++ q) /\ member_at mf (names_of (cf_path f) ++ q) = Some m0.
Proof.
  intros (N & C & D) T MT E Q A. pose proof meta_neat as M. apply neat_eq in M as (_ & ML). pose proof (member_at_has _ _ _ A) as H.
  unfold field_members in E. rewrite C, MT in E. unfold place_members in E. destruct (name_empty (cf_path f)) eqn:NE.
  - inversion E; subst. assert (P : cf_path f = []).
    { destruct (T _ N) as (_ & T2). destruct (cf_path f) as [|c [|d l]]; [reflexivity| |discriminate]. cbn in NE. destruct (p_name c); [congruence|discriminate]. }
    rewrite P. cbn [names_of map app]. auto.
  - pose proof (undotted_rev _ (named_undotted _ _ N)) as U. destruct (wrap_spec _ _ _ E U (proj2 ML) (proj1 ML)) as ((A1 & A2) & _ & B & K). rewrite rev_involutive in *.
    split; [split; assumption|]. split; [now apply B|]. now rewrite K.
Qed.

(** ** Ids of structures *)
Definition id_at (n : str) (cs : list member) : option str := option_map m_id (find (fun c => str_eqb (m_name c) n) cs).
Lemma merge_id a cs r n : append_child a cs = Some r ->
  id_at n r = if str_eqb (m_name a) n
              then match id_at n cs with Some i => Some (if is_nil (m_id a) then i else m_id a) | None => Some (m_id a) end
              else id_at n cs.
Proof.
  revert r. induction cs as [|c cs IH]; intros r E; unfold id_at.
  - rewrite append_child_nil in E. inversion E; subst. cbn [find]. destruct (str_eqb (m_name a) n); reflexivity.
  - rewrite append_child_cons in E. destruct (str_eqb (m_name c) (m_name a)) eqn:EN.
    + destruct (merge_into a c) as [c'|] eqn:M; [|discriminate]. inversion E; subst. unfold merge_into in M.
      destruct (negb _); [discriminate|]. destruct (append_each _ _); [|discriminate]. inversion M; subst. apply str_eqb_eq in EN.
      cbn [find m_name]. rewrite EN. destruct (str_eqb (m_name a) n); reflexivity.
    + destruct (append_child a cs) as [r'|] eqn:AC; [|discriminate]. inversion E; subst. cbn [find]. specialize (IH r' eq_refl). unfold id_at in IH.
      destruct (str_eqb (m_name c) n) eqn:CN; [|exact IH]. apply str_eqb_eq in CN. apply str_eqb_neq in EN. destruct (str_eqb (m_name a) n) eqn:AN; [|reflexivity].
      apply str_eqb_eq in AN. congruence.
Qed.
Definition plain_at (n : str) (l : list member) : Prop := Forall (fun a => m_name a = n -> m_id a = []) l.
Lemma each_id gs n : plain_at n gs -> forall cs r, append_each gs cs = Some r ->
  id_at n r = match id_at n cs with Some i => Some i | None => id_at n r end /\ (forall i, id_at n cs = None -> id_at n r = Some i -> i = []).
Proof.
  induction 1 as [|a gs P F IH]; intros cs r E; cbn [append_each] in E.
  - inversion E; subst. split; [destruct (id_at n r); reflexivity|]. intros i A B. congruence.
  - fold append_each in E. destruct (append_child a cs) as [c1|] eqn:AC; [|discriminate]. pose proof (merge_id _ _ _ n AC) as M.
    destruct (IH c1 r E) as (I1 & I2). destruct (str_eqb (m_name a) n) eqn:AN.
    + apply str_eqb_eq in AN. rewrite (P AN) in M. cbn [is_nil] in M. destruct (id_at n cs) as [i|] eqn:X; rewrite M in I1.
      * split; [exact I1|intros; discriminate].
      * split; [reflexivity|]. intros i _ B. congruence.
    + rewrite M in I1, I2. split; [exact I1|exact I2].
Qed.
Lemma struct_id pre a post r : append_each (pre ++ a :: post) [] = Some r -> plain_at (m_name a) pre -> plain_at (m_name a) post ->
  id_at (m_name a) r = Some (m_id a).
Proof.
  intros E P1 P2.
  assert (APP : forall l1 l2 cs, append_each (l1 ++ l2) cs = match append_each l1 cs with Some x => append_each l2 x | None => None end).
  { induction l1 as [|x l1 IH]; intros l2 cs; cbn [append_each app]; [reflexivity|]. fold append_each. destruct (append_child x cs); [apply IH|reflexivity]. }
  rewrite APP in E. destruct (append_each pre []) as [c1|] eqn:E1; [|discriminate]. cbn [append_each] in E. fold append_each in E.
  destruct (append_child a c1) as [c2|] eqn:E2; [|discriminate].
  destruct (each_id _ _ P1 _ _ E1) as (_ & A2). destruct (each_id _ _ P2 _ _ E) as (B1 & _).
  rewrite (merge_id _ _ _ (m_name a) E2), str_eqb_refl in B1. cbn [id_at find option_map] in A2.
  destruct (id_at (m_name a) c1) as [i|] eqn:X.
  - rewrite (A2 i eq_refl eq_refl) in B1. rewrite B1. destruct (m_id a); reflexivity.
  - exact B1.
Qed.
(** members at the top which belong to deeper fields have no id *)
Lemma wrap_ids rp : forall ch ms a, wrap_members rp ch = OK ms -> rp <> [] -> In a ms -> m_id a = [].
Proof.
  induction rp as [|c rp IH]; intros ch ms a E N I; [congruence|]. cbn [wrap_members] in E. unfold new_member in E. destruct (member_validate _); [|discriminate].
  destruct rp as [|d rp]; [|eapply IH; eauto; discriminate]. cbn [wrap_members] in E. inversion E; subst. destruct I as [<-|[]]. reflexivity.
Qed.
(** the field makes no named type at the top called [n] *)
Definition not_top (n : str) (x : str * fconf) : Prop :=
  forall path, named (fst x) path -> names_of path <> [n] /\ (fc_type (snd x) = MMeta -> path = [] -> n <> bs "alarm" /\ n <> bs "timeStamp").
Lemma field_ids db x f ms n : made db x f -> tidy x -> worded x -> not_top n x -> field_members f = OK ms -> plain_at n ms.
Proof.
  intros M T W NT E. assert (UN : unnamed f = false) by (eapply worded_named; eauto). destruct M as (N & C & D).
  destruct (NT _ N) as (N1 & N2). destruct (T _ N) as (T1 & T2). pose proof (named_undotted _ _ N) as U.
  unfold field_members in E. unfold unnamed in UN. rewrite C in E, UN.
  assert (LEAF : forall leaf, m_name leaf = p_name (leaf_comp (cf_path f)) -> name_empty (cf_path f) = false ->
    place_members (cf_path f) [leaf] true = OK ms -> plain_at n ms).
  { intros leaf NM NE PE. unfold place_members in PE. rewrite NE in PE. destruct (cf_path f) as [|c [|d l]] eqn:PF; [discriminate| |].
    - cbn [rev app tl wrap_members] in PE. inversion PE; subst. constructor; [|constructor]. intro X. exfalso. apply N1. cbn in NM. cbn [names_of map]. congruence.
    - apply Forall_forall. intros a I _. eapply wrap_ids; eauto. intro X. assert (L : length (tl (rev (c :: d :: l))) = S (length l)).
      { assert (K : forall (l : list comp), length (tl l) = (length l - 1)%nat) by (intros []; cbn; lia). rewrite K, rev_length. cbn. lia. }
      rewrite X in L. discriminate. }
  destruct (fc_type (snd x)) eqn:MT.
  - rewrite UN in E. destruct (cf_chan f) as [c|]; [|discriminate]. destruct (channel_def c) as [m| |]; cbn [obind] in E; try discriminate.
    eapply LEAF; [|exact UN|exact E]. reflexivity.
  - rewrite UN in E. destruct (cf_chan f) as [c|]; [|discriminate]. destruct (channel_type true c) as [code|]; [|discriminate]. destruct (tc_valid code); [|discriminate].
    eapply LEAF; [|exact UN|exact E]. reflexivity.
  - rewrite UN in E. unfold new_member in E. destruct (member_validate _); cbn [obind] in E; [|discriminate]. eapply LEAF; [|exact UN|exact E]. reflexivity.
  - unfold place_members in E. destruct (name_empty (cf_path f)) eqn:NE.
    + inversion E; subst. destruct N2 as (K1 & K2); [reflexivity| |].
      * destruct (cf_path f) as [|c [|d l]]; [reflexivity| |discriminate]. cbn in NE. destruct (p_name c); [congruence|discriminate].
      * constructor; [|constructor; [|constructor]]; intro X; exfalso; [apply K1|apply K2]; rewrite <- X; reflexivity.
    + apply Forall_forall. intros a I _. eapply wrap_ids; eauto. intro X. apply (f_equal (@rev comp)) in X. rewrite rev_involutive in X. rewrite X in NE. discriminate.
  - inversion E. constructor.
  - specialize (T1 eq_refl). destruct (cf_path f) as [|c [|d l]] eqn:PF; try discriminate. unfold new_member in E. destruct (member_validate _); cbn [obind] in E; [|discriminate].
    unfold place_members in E. destruct (name_empty [c]); cbn [rev app tl wrap_members] in E; inversion E; subst; constructor; try constructor; intro X; exfalso; apply N1;
      cbn [m_name names_of map] in *; unfold cf_name in X; rewrite PF in X; cbn [hd] in X; congruence.
  - destruct (fc_const (snd x)) as [v|]; [|discriminate]. destruct (name_empty (cf_path f)) eqn:NE; [discriminate|]. eapply LEAF; [|reflexivity|exact E]. reflexivity.
Qed.
Lemma fields_ids db xs fs ms n : Forall2 (made db) xs fs -> Forall (fun x => tidy x /\ worded x /\ not_top n x) xs -> all_members fs = OK ms -> plain_at n ms.
Proof.
  intro F. revert ms. induction F as [|x f xs fs M F IH]; intros ms T E; [inversion E; constructor|]. inversion T as [|? ? (T1 & T2 & T3) T4]; subst.
  change (f :: fs) with ([f] ++ fs) in E. apply all_members_app in E as (m1 & m2 & E1 & E2 & ->). rewrite all_members_one in E1.
  apply Forall_app. split; [eapply field_ids; eauto|apply (IH m2); assumption].
Qed.
Lemma structure_id db id xs fs x f xs' fs' ms m n :
  Forall2 (made db) xs fs -> made db x f -> Forall2 (made db) xs' fs' -> fc_type (snd x) = MStructure -> names_of (cf_path f) = [n] ->
  Forall (fun x => tidy x /\ worded x /\ not_top n x) (xs ++ xs') ->
  all_members (fs ++ f :: fs') = OK ms -> typedef_append (Mem tc_Struct [] id []) (record_member :: ms) = OK m ->
  exists s, member_at (m_children m) [n] = Some s /\ m_id s = fc_id (snd x).
Proof.
  intros F M F' MT NN T E TA. apply Forall_app in T as (T1 & T2).
  apply template_each in TA as (TA & _). apply all_members_app in E as (m1 & m2 & E1 & E2 & ->).
  change (f :: fs') with ([f] ++ fs') in E2. apply all_members_app in E2 as (m3 & m4 & E3 & E4 & ->). rewrite all_members_one in E3.
  destruct M as (N & C & D). destruct (cf_path f) as [|c [|d l]] eqn:PF; try discriminate. cbn [names_of map] in NN. inversion NN; subst n.
  unfold field_members in E3. rewrite C, MT, PF in E3. unfold new_member in E3. destruct (member_validate _); cbn [obind] in E3; [|discriminate].
  assert (K : m3 = [Mem (if is_indexed (leaf_comp [c]) then tc_StructA else tc_Struct) (p_name c) (fc_id (snd x)) []]).
  { unfold cf_name in E3. rewrite PF in E3. cbn [hd] in E3. unfold place_members in E3. destruct (name_empty [c]); [|cbn [rev app tl wrap_members] in E3]; now inversion E3. }
  subst m3. pose proof (struct_id (record_member :: m1) _ m4 _ TA) as S. cbn [m_name m_id] in S.
  assert (S' : id_at (p_name c) (m_children m) = Some (fc_id (snd x))).
  { apply S.
    - constructor; [reflexivity|]. eapply (fields_ids db xs fs); eauto.
    - eapply (fields_ids db xs' fs'); eauto. }
  unfold id_at in S'. cbn [member_at is_nil]. destruct (find _ _) as [s|]; [|discriminate]. cbn in S'. inversion S'. exists s. auto.
Qed.

(** ** Groups of a configuration *)
Lemma sorted_NoDup_str l : StronglySorted str_lt l -> NoDup l.
Proof.
  induction 1 as [|x l S IH F]; constructor; auto. intro I. rewrite Forall_forall in F. specialize (F x I). unfold str_lt in F. rewrite str_ltb_irrefl in F. discriminate.
Qed.
Definition fields_of (g : gconf) : list (str * fconf) := map pair_of (sort_fields (define_fields (gc_fields g))).
Lemma fields_perm g : Permutation (fields_of g) (filter keep (gc_fields g)).
Proof. unfold fields_of. rewrite (Permutation_map pair_of (sort_perm _)). now rewrite define_pairs. Qed.
Lemma fields_sorted g : StronglySorted str_lt (map fst (gc_fields g)) -> StronglySorted before (fields_of g).
Proof. intro S. unfold fields_of. apply sorted_map. apply sort_sorted. now apply define_names_sorted. Qed.
Lemma defined_pairs name g : map pair_of (gd_fields (define_group name g)) = fields_of g.
Proof. cbn [gd_fields define_group]. now rewrite resolve_pairs. Qed.
Lemma names_nodup g : StronglySorted str_lt (map fst (gc_fields g)) -> NoDup (map fd_name (sort_fields (define_fields (gc_fields g)))).
Proof.
  intro S. eapply Permutation_NoDup; [apply Permutation_map; symmetry; apply sort_perm|]. apply sorted_NoDup_str. now apply define_names_sorted.
Qed.
Lemma resolve_names l : map fd_name (resolve l) = map fd_name l.
Proof. unfold resolve. rewrite map_map. reflexivity. Qed.
Lemma fresh_triggers l : Forall (fun f => fd_triggers f = []) (sort_fields (define_fields l)).
Proof.
  apply Forall_forall. intros f I. apply (Permutation_in _ (sort_perm _)) in I. unfold define_fields in I. apply in_map_iff in I as (x & <- & _). reflexivity.
Qed.
Lemma defined_triggers name g d t : StronglySorted str_lt (map fst (gc_fields g)) -> In d (gd_fields (define_group name g)) ->
  (In t (fd_triggers d) <-> exists h, In h (fields_of g) /\ fst h = t /\ triggers (fields_of g) (pair_of d) h).
Proof. intros S I. apply resolve_triggers; [now apply names_nodup|apply fresh_triggers|exact I]. Qed.
Lemma F2_map {A B C} (R : B -> C -> Prop) (g : A -> B) l m : Forall2 R (map g l) m <-> Forall2 (fun a c => R (g a) c) l m.
Proof.
  split; [revert m; induction l as [|a l IH]; intros m H; inversion H; subst; constructor; auto|]. induction 1; cbn [map]; constructor; auto.
Qed.
Lemma F2_nth {A B} (R : A -> B -> Prop) l m i a b : Forall2 R l m -> nth_error l i = Some a -> nth_error m i = Some b -> R a b.
Proof. intro F. revert i. induction F; intros [|i] E1 E2; cbn in *; try discriminate; [congruence|eauto]. Qed.
Lemma group_ok db name g : StronglySorted str_lt (map fst (gc_fields g)) -> Forall (fun x => kept x -> makeable db x /\ worded x) (gc_fields g) ->
  exists fs, create_group db (define_group name g) = JOk {| g_name := name; g_atomic := negb (gc_atomic_set g) || gc_atomic g; g_fields := fs;
    g_type := match all_members fs with OK ms => match typedef_append (Mem tc_Struct [] (gc_id g) []) (record_member :: ms) with OK m => Some m | _ => None end | _ => None end |} /\
  Forall2 (made db) (fields_of g) fs /\
  forall i x f, nth_error (fields_of g) i = Some x -> nth_error fs i = Some f ->
    if is_nil (fc_channel (snd x)) then cf_trig f = []
    else forall j, In j (cf_trig f) <-> exists h, nth_error (fields_of g) j = Some h /\ triggers (fields_of g) x h.
Proof.
  intros S F.
  assert (N : NoDup (map fd_name (gd_fields (define_group name g)))) by (cbn [gd_fields define_group]; rewrite resolve_names; now apply names_nodup).
  destruct (create_ok db (define_group name g) N) as (fs & FF & E).
  { apply Forall_forall. intros d I. apply (in_map pair_of) in I. rewrite defined_pairs in I. apply (Permutation_in _ (fields_perm g)) in I.
    apply filter_In in I as (I & K). apply keep_kept in K. rewrite Forall_forall in F. auto. }
  exists fs. split; [|split].
  - rewrite E. cbn [gd_name gd_id gd_atomic define_group]. f_equal. f_equal. destruct (gc_atomic_set g), (gc_atomic g); reflexivity.
  - rewrite <- (defined_pairs name). apply F2_map. eapply F2_imp; [|exact FF]. intros d f ((M & _) & _). exact M.
  - intros i x f X Y. rewrite <- (defined_pairs name) in X. rewrite nth_error_map in X. destruct (nth_error (gd_fields (define_group name g)) i) as [d|] eqn:DI; [|discriminate].
    cbn in X. inversion X; subst x. destruct (F2_nth _ _ _ _ _ _ FF DI Y) as (_ & T). cbn [pair_of snd]. unfold has_channel in T.
    destruct (is_nil (fc_channel (fd_conf d))); cbn [negb] in T; [exact T|]. intro j. rewrite (T j). pose proof (nth_error_In _ _ DI) as ID. split.
    + intros (h & HJ & I). apply (defined_triggers name g d _ S ID) in I as (h' & I' & EN & TR). exists h'. split; [|exact TR].
      rewrite <- (defined_pairs name). rewrite nth_error_map, HJ. cbn. f_equal.
      rewrite <- (defined_pairs name) in I'. apply in_map_iff in I' as (d' & <- & I'). f_equal.
      apply (NoDup_name_eq _ _ _ N); [eapply nth_error_In; eauto|exact I'|]. cbn in EN. congruence.
    + intros (h & HJ & TR). rewrite <- (defined_pairs name) in HJ. rewrite nth_error_map in HJ. destruct (nth_error (gd_fields (define_group name g)) j) as [e|] eqn:EJ; [|discriminate].
      cbn in HJ. inversion HJ; subst h. exists e. split; [reflexivity|]. apply (defined_triggers name g d _ S ID). exists (pair_of e). split; [|auto].
      rewrite <- (defined_pairs name). apply in_map. eapply nth_error_In; eauto.
Qed.
