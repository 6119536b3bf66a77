(** Documents and the settings they make. *)
From Coq Require Import String ZArith List Bool Lia ZifyBool ZifyNat Sorting.Permutation Sorting.Sorted.
From Verif Require Import Base BaseProofs WireModel TypeModel TextModel TextSpec TextProofs ValueModel MarkModel CopyModel NtModel
  TypeSpec TypeNameProofs TypeDefProofs NtSpec GroupModel GroupSpec.
Import ListNotations.
Local Open Scope Z_scope.

Definition set_field (fp : fpu) (s : setting) (f : fconf) : fconf :=
  match field_option fp (st_prefix s) (st_key s) (st_value s) f with JOk f' => f' | _ => f end.
Definition set_group (fp : fpu) (s : setting) (g : gconf) : gconf :=
  match st_field s with
  | None => match group_option fp (st_key s) (st_value s) g with JOk g' => g' | _ => g end
  | Some f => {| gc_atomic := gc_atomic g; gc_atomic_set := gc_atomic_set g; gc_id := gc_id g;
                 gc_fields := map_set f (set_field fp s (map_at fconf0 f (gc_fields g))) (gc_fields g) |}
  end.
Definition set_config (fp : fpu) (cs : configs) (s : setting) : configs :=
  map_set (st_group s) (set_group fp s (map_at gconf0 (st_group s) cs)) cs.

Lemma as_text_ok fp v p t : v = Some p -> to_text fp p = CV t -> as_text fp v = JOk t.
Proof. intros -> E. unfold as_text. now rewrite E. Qed.
Lemma as_bool_ok fp v p t : v = Some p -> out_bool fp p = CV t -> as_bool fp v = JOk t.
Proof. intros -> E. unfold as_bool. now rewrite E. Qed.
Lemma as_int_ok fp v p t : v = Some p -> to_int fp p = CV t -> as_int fp v = JOk t.
Proof. intros -> E. unfold as_int. now rewrite E. Qed.
Lemma suits_field fp s f x : suits fp s -> st_field s = Some f -> exists y, field_option fp (st_prefix s) (st_key s) (st_value s) x = JOk y.
Proof.
  unfold suits. intros S E. rewrite E in S. destruct S as (T & Z). unfold field_option.
  repeat match goal with
  | |- context [str_eqb ?k ?b] => let E := fresh "E" in destruct (str_eqb k b) eqn:E;
      [apply str_eqb_eq in E; first
         [ destruct T as (p & t & V & C); [rewrite E; cbn [In]; tauto|]; rewrite (as_text_ok _ _ _ _ V C)
         | destruct (Z E) as (p & t & V & C); rewrite (as_int_ok _ _ _ _ V C)
         | idtac ]; cbn [jmap]; eauto|]
  end. eauto.
Qed.
Lemma suits_group fp s x : suits fp s -> st_field s = None -> exists y, group_option fp (st_key s) (st_value s) x = JOk y.
Proof.
  unfold suits. intros S E. rewrite E in S. destruct S as (B & T). unfold group_option.
  destruct (str_eqb _ _) eqn:E1; [apply str_eqb_eq in E1; destruct (B E1) as (p & t & V & C); rewrite (as_bool_ok _ _ _ _ V C); cbn [jmap]; eauto|].
  destruct (str_eqb (st_key s) (bs "+id")) eqn:E2; [apply str_eqb_eq in E2; destruct (T E2) as (p & t & V & C); rewrite (as_text_ok _ _ _ _ V C); cbn [jmap]; eauto|].
  eauto.
Qed.

(** ** Callbacks *)
Definition ctx (pre g f k : str) (d : nat) : jctx := {| j_prefix := pre; j_group := g; j_field := f; j_key := k; j_depth := d |}.
Lemma step1 fp c e l ok cs cs' c' n : j_event fp c e cs = (cs', c', CbReturns n) -> n <> 0 ->
  j_events fp c (e :: l) ok cs = j_events fp c' l ok cs'.
Proof. intros E N. cbn [j_events]. rewrite E. apply Z.eqb_neq in N. now rewrite N. Qed.
Lemma ev_key fp pre g f k d n cs : n <> [] \/ d = 2%nat -> (1 <= d <= 3)%nat ->
  j_event fp (ctx pre g f k d) (EKey n) cs =
  (cs, match d with 1%nat => ctx pre n f k 1 | 2%nat => ctx pre g n k 2 | _ => ctx pre g f n 3 end, CbReturns 1).
Proof.
  intros N D. cbn [j_event]. unfold ctx at 1 2 3 4. cbn [j_depth].
  replace (is_nil n && negb (d =? 2)%nat) with false.
  2:{ destruct N as [N| ->]; [destruct n; [congruence|reflexivity]|now rewrite andb_false_r]. }
  destruct d as [|[|[|[|d]]]]; try lia; reflexivity.
Qed.
Lemma ev_start fp pre g f k d cs : (d < 3)%nat -> j_event fp (ctx pre g f k d) EStart cs = (cs, ctx pre g f k (S d), CbReturns 1).
Proof. intro D. destruct d as [|[|[|d]]]; try lia; reflexivity. Qed.
Lemma ev_end fp pre g f d cs : (1 <= d <= 3)%nat ->
  j_event fp (ctx pre g f [] d) EEnd cs =
  (cs, match d with 1%nat => ctx pre [] f [] 0 | 2%nat => ctx pre g [] [] 1 | _ => ctx pre g f [] 2 end, CbReturns 1).
Proof. intro D. destruct d as [|[|[|[|d]]]]; try lia; reflexivity. Qed.
Lemma ev_val fp s k cs : suits fp s ->
  j_event fp (match st_field s with Some f => ctx (st_prefix s) (st_group s) f (st_key s) 3 | None => ctx (st_prefix s) (st_group s) (st_key s) k 2 end) (EVal (st_value s)) cs =
  (set_config fp cs s, match st_field s with Some f => ctx (st_prefix s) (st_group s) f [] 3 | None => ctx (st_prefix s) (st_group s) [] k 2 end, CbReturns 1).
Proof.
  intro S. unfold set_config, set_group, set_field. destruct (st_field s) as [f|] eqn:E; cbn [j_event]; unfold j_assign, ctx at 1 2 3;
    cbn [j_depth Nat.ltb Nat.leb orb Nat.eqb]; cbv zeta; cbn [ctx j_prefix j_group j_field j_key].
  - destruct (suits_field fp s f (map_at fconf0 f (gc_fields (map_at gconf0 (st_group s) cs))) S E) as (y & F).
    rewrite F. reflexivity.
  - destruct (suits_group fp s (map_at gconf0 (st_group s) cs) S E) as (y & F). rewrite F. reflexivity.
Qed.
Definition opt_setting (pre g f : str) (o : str * option src) : setting :=
  {| st_prefix := pre; st_group := g; st_field := Some f; st_key := fst o; st_value := snd o |}.
Lemma opts_events fp pre g f : forall opts rest ok cs,
  Forall (fun o => fst o <> []) opts ->
  Forall (suits fp) (map (opt_setting pre g f) opts) ->
  j_events fp (ctx pre g f [] 3) (flat_map opt_events opts ++ rest) ok cs =
  j_events fp (ctx pre g f [] 3) rest ok (fold_left (set_config fp) (map (opt_setting pre g f) opts) cs).
Proof.
  induction opts as [|o opts IH]; intros rest ok cs N S; [reflexivity|].
  inversion N as [|? ? N1 N2]; inversion S as [|? ? S1 S2]; subst. cbn [flat_map map fold_left opt_events app].
  rewrite (step1 _ _ _ _ _ _ _ _ _ (ev_key fp pre g f [] 3 (fst o) cs (or_introl N1) ltac:(lia)) ltac:(lia)).
  rewrite (step1 _ _ _ _ _ _ _ _ _ (ev_val fp (opt_setting pre g f o) [] cs S1) ltac:(lia)).
  now apply IH.
Qed.
Lemma member_step fp pre g m : forall f rest ok cs,
  match m with JField _ opts => Forall (fun o => fst o <> []) opts | _ => True end ->
  Forall (suits fp) (member_settings pre g m) ->
  exists f', j_events fp (ctx pre g f [] 2) (member_events m ++ rest) ok cs =
    j_events fp (ctx pre g f' [] 2) rest ok (fold_left (set_config fp) (member_settings pre g m) cs).
Proof.
  intros f rest ok cs N S. destruct m as [n v|n opts].
  - cbn [member_events member_settings] in *. inversion S as [|? ? S1 _]; subst. exists [].
    cbn [app fold_left].
    rewrite (step1 _ _ _ _ _ _ _ _ _ (ev_key fp pre g f [] 2 n cs (or_intror eq_refl) ltac:(lia)) ltac:(lia)).
    rewrite (step1 _ _ _ _ _ _ _ _ _ (ev_val fp _ [] cs S1) ltac:(lia)). reflexivity.
  - cbn [member_events member_settings] in *. exists n. rewrite <- !app_comm_cons.
    rewrite (step1 _ _ _ _ _ _ _ _ _ (ev_key fp pre g f [] 2 n cs (or_intror eq_refl) ltac:(lia)) ltac:(lia)).
    rewrite (step1 _ _ _ _ _ _ _ _ _ (ev_start fp pre g n [] 2 cs ltac:(lia)) ltac:(lia)).
    rewrite <- app_assoc. fold (opt_setting pre g n) in *. rewrite opts_events by assumption. cbn [app].
    rewrite (step1 _ _ _ _ _ _ _ _ _ (ev_end fp pre g n 3 _ ltac:(lia)) ltac:(lia)). reflexivity.
Qed.
Lemma members_step fp pre g : forall ms f rest ok cs,
  Forall (fun m => match m with JField _ opts => Forall (fun o => fst o <> []) opts | _ => True end) ms ->
  Forall (suits fp) (flat_map (member_settings pre g) ms) ->
  exists f', j_events fp (ctx pre g f [] 2) (flat_map member_events ms ++ rest) ok cs =
    j_events fp (ctx pre g f' [] 2) rest ok (fold_left (set_config fp) (flat_map (member_settings pre g) ms) cs).
Proof.
  induction ms as [|m ms IH]; intros f rest ok cs N S; [exists f; reflexivity|].
  inversion N as [|? ? N1 N2]; subst. cbn [flat_map] in *. apply Forall_app in S as [S1 S2].
  rewrite <- app_assoc. destruct (member_step fp pre g m f (flat_map member_events ms ++ rest) ok cs N1 S1) as (f1 & ->).
  rewrite fold_left_app. now apply IH.
Qed.
Definition group_events (g : str * list jmember) : list jevent := EKey (fst g) :: EStart :: flat_map member_events (snd g) ++ [EEnd].
Lemma groups_step fp pre : forall d g0 rest ok cs, doc_keys_ok d -> Forall (suits fp) (doc_settings pre d) ->
  exists g1, j_events fp (ctx pre g0 [] [] 1) (flat_map group_events d ++ rest) ok cs =
    j_events fp (ctx pre g1 [] [] 1) rest ok (fold_left (set_config fp) (doc_settings pre d) cs).
Proof.
  induction d as [|[g ms] d IH]; intros g0 rest ok cs K S; [exists g0; reflexivity|].
  inversion K as [|? ? (K1 & K2) K3]; subst. unfold doc_settings in *. cbn [flat_map fst snd] in *. apply Forall_app in S as [S1 S2].
  unfold group_events at 1. cbn [fst snd]. rewrite <- !app_comm_cons.
  rewrite (step1 _ _ _ _ _ _ _ _ _ (ev_key fp pre g0 [] [] 1 g cs (or_introl K1) ltac:(lia)) ltac:(lia)).
  rewrite (step1 _ _ _ _ _ _ _ _ _ (ev_start fp pre g [] [] 1 cs ltac:(lia)) ltac:(lia)).
  rewrite <- !app_assoc.
  match goal with |- context [flat_map member_events ms ++ ?r] => destruct (members_step fp pre g ms [] r ok cs K2 S1) as (f1 & ->) end.
  cbn [app].
  rewrite (step1 _ _ _ _ _ _ _ _ _ (ev_end fp pre g f1 2 _ ltac:(lia)) ltac:(lia)).
  rewrite fold_left_app. now apply IH.
Qed.
Definition record_prefix (r : option str) : str := match r with Some n => n ++ [46] | None => [] end.
Lemma doc_step fp r d cs : doc_keys_ok d -> Forall (suits fp) (doc_settings (record_prefix r) d) ->
  parse_config fp r (doc_events d, true) cs = (fold_left (set_config fp) (doc_settings (record_prefix r) d) cs, JOk tt).
Proof.
  intros K S. unfold parse_config, doc_events. cbn [fst snd]. fold (record_prefix r). fold (ctx (record_prefix r) [] [] [] 0).
  rewrite (step1 _ _ _ _ _ _ _ _ _ (ev_start fp (record_prefix r) [] [] [] 0 cs ltac:(lia)) ltac:(lia)). fold group_events.
  destruct (groups_step fp (record_prefix r) d [] [EEnd] true cs K S) as (g1 & ->).
  rewrite (step1 _ _ _ _ _ _ _ _ _ (ev_end fp (record_prefix r) g1 [] 1 _ ltac:(lia)) ltac:(lia)). reflexivity.
Qed.

(** ** Settings *)
Lemma last_such_snoc P l s : last_such P (l ++ [s]) = if P s then Some s else last_such P l.
Proof. unfold last_such. rewrite rev_app_distr. reflexivity. Qed.
Lemma last_such_none P l : (forall s, In s l -> P s = false) -> last_such P l = None.
Proof.
  intro H. unfold last_such. destruct (find P (rev l)) as [s|] eqn:E; [|reflexivity]. apply find_some in E as [I E].
  rewrite H in E; [discriminate|]. now apply in_rev.
Qed.
Lemma type_named_known old t : existsb (fun x => str_eqb (fst x) t) mapping_types = true -> In (t, type_named old t) mapping_types.
Proof.
  intro H. apply existsb_exists in H as ((n & m) & I & E). apply str_eqb_eq in E. cbn [fst] in E. subst t.
  unfold mapping_types in I. cbn [In] in I.
  repeat (destruct I as [I|I]; [injection I as <- <-; unfold mapping_types; cbn [In]; vm_compute; tauto|]). destruct I.
Qed.
Lemma type_named_unknown old t : existsb (fun x => str_eqb (fst x) t) mapping_types = false -> type_named old t = old.
Proof.
  unfold mapping_types. cbn [existsb fst]. intro H. repeat (apply orb_false_iff in H as [? H]).
  assert (SY : forall a b, str_eqb a b = false -> str_eqb b a = false).
  { intros a b E. apply str_eqb_neq. apply str_eqb_neq in E. congruence. }
  unfold type_named. repeat match goal with E : str_eqb _ t = false |- _ => rewrite (SY _ _ E); clear E end. reflexivity.
Qed.
Lemma told_default fp l g f : (forall s, In s l -> ~ (st_group s = g /\ st_field s = Some f)) -> told_field fp l g f fconf0.
Proof.
  intro H. assert (N : forall k s, In s l -> field_is g f k s = false).
  { intros k s I. unfold field_is. destruct (str_eqb (st_group s) g) eqn:E1; [|reflexivity]. destruct (st_field s) as [f'|] eqn:E2; [|reflexivity].
    destruct (str_eqb f' f) eqn:E3; [|reflexivity]. apply str_eqb_eq in E1, E3. subst. exfalso. apply (H s I). auto. }
  unfold told_field. rewrite !last_such_none by auto. rewrite last_such_none.
  2:{ intros s I. now rewrite N. }
  repeat split.
Qed.
Lemma told_other fp l g f c s : ~ (st_group s = g /\ st_field s = Some f) -> told_field fp l g f c -> told_field fp (l ++ [s]) g f c.
Proof.
  intros H. assert (N : forall k, field_is g f k s = false).
  { intros k. unfold field_is. destruct (str_eqb (st_group s) g) eqn:E1; [|reflexivity]. destruct (st_field s) as [f'|] eqn:E2; [|reflexivity].
    destruct (str_eqb f' f) eqn:E3; [|reflexivity]. apply str_eqb_eq in E1, E3. subst. exfalso. apply H. auto. }
  unfold told_field. rewrite !last_such_snoc. rewrite !N. cbn [andb]. auto.
Qed.
Lemma told_set fp l s f c : suits fp s -> st_field s = Some f -> told_field fp l (st_group s) f c ->
  told_field fp (l ++ [s]) (st_group s) f (set_field fp s c).
Proof.
  intros S E T. unfold told_field in *. destruct T as (T1 & T2 & T3 & T4 & T5 & T6).
  rewrite !last_such_snoc.
  assert (N : forall k, field_is (st_group s) f k s = str_eqb (st_key s) k).
  { intros k. unfold field_is. now rewrite E, !str_eqb_refl. }
  rewrite !N. unfold suits in S. rewrite E in S. destruct S as (TX & Z). unfold set_field, field_option.
  destruct (str_eqb (st_key s) (bs "+type")) eqn:K1.
  { apply str_eqb_eq in K1. rewrite K1 in *. destruct TX as (p & t & V & C); [cbn [In]; tauto|]. rewrite (as_text_ok _ _ _ _ V C).
    cbn [jmap fc_channel fc_trigger fc_id fc_const fc_order fc_type].
    change (str_eqb (bs "+type") (bs "+channel")) with false. change (str_eqb (bs "+type") (bs "+trigger")) with false.
    change (str_eqb (bs "+type") (bs "+id")) with false. change (str_eqb (bs "+type") (bs "+const")) with false.
    change (str_eqb (bs "+type") (bs "+putorder")) with false. cbv iota.
    do 5 (split; [assumption|]). cbn [andb]. unfold known_type. unfold text_of at 1. rewrite V, C.
    destruct (existsb _ mapping_types) eqn:EX.
    - unfold text_of. rewrite V, C. now apply type_named_known.
    - rewrite (type_named_unknown _ _ EX). exact T6. }
  destruct (str_eqb (st_key s) (bs "+channel")) eqn:K2.
  { apply str_eqb_eq in K2. rewrite K2 in *. destruct TX as (p & t & V & C); [cbn [In]; tauto|]. rewrite (as_text_ok _ _ _ _ V C).
    cbn [jmap fc_channel fc_trigger fc_id fc_const fc_order fc_type].
    change (str_eqb (bs "+channel") (bs "+trigger")) with false.
    change (str_eqb (bs "+channel") (bs "+id")) with false. change (str_eqb (bs "+channel") (bs "+const")) with false.
    change (str_eqb (bs "+channel") (bs "+putorder")) with false. cbv iota.
    split; [unfold text_of; now rewrite V, C|]. do 4 (split; [assumption|]). exact T6. }
  destruct (str_eqb (st_key s) (bs "+id")) eqn:K3.
  { apply str_eqb_eq in K3. rewrite K3 in *. destruct TX as (p & t & V & C); [cbn [In]; tauto|]. rewrite (as_text_ok _ _ _ _ V C).
    cbn [jmap fc_channel fc_trigger fc_id fc_const fc_order fc_type].
    change (str_eqb (bs "+id") (bs "+trigger")) with false. change (str_eqb (bs "+id") (bs "+const")) with false.
    change (str_eqb (bs "+id") (bs "+putorder")) with false. cbv iota.
    do 2 (split; [assumption|]). split; [unfold text_of; now rewrite V, C|]. do 2 (split; [assumption|]). exact T6. }
  destruct (str_eqb (st_key s) (bs "+trigger")) eqn:K4.
  { apply str_eqb_eq in K4. rewrite K4 in *. destruct TX as (p & t & V & C); [cbn [In]; tauto|]. rewrite (as_text_ok _ _ _ _ V C).
    cbn [jmap fc_channel fc_trigger fc_id fc_const fc_order fc_type].
    change (str_eqb (bs "+trigger") (bs "+const")) with false.
    change (str_eqb (bs "+trigger") (bs "+putorder")) with false. cbv iota.
    do 1 (split; [assumption|]). split; [unfold text_of; now rewrite V, C|]. do 3 (split; [assumption|]). exact T6. }
  destruct (str_eqb (st_key s) (bs "+putorder")) eqn:K5.
  { apply str_eqb_eq in K5. rewrite K5 in *. destruct (Z eq_refl) as (p & t & V & C). rewrite (as_int_ok _ _ _ _ V C).
    cbn [jmap fc_channel fc_trigger fc_id fc_const fc_order fc_type].
    change (str_eqb (bs "+putorder") (bs "+const")) with false. cbv iota.
    do 4 (split; [assumption|]). split; [|exact T6]. unfold int_of. rewrite V, C. unfold no_order.
    destruct (Z.eqb_spec t (- 2 ^ 63)); lia. }
  destruct (str_eqb (st_key s) (bs "+const")) eqn:K6.
  { cbn [fc_channel fc_trigger fc_id fc_const fc_order fc_type]. do 3 (split; [assumption|]). split; [reflexivity|]. split; [assumption|exact T6]. }
  do 5 (split; [assumption|]). exact T6.
Qed.

(** the whole configuration as told by settings [l] *)
Definition told (fp : fpu) (l : list setting) (cs : configs) : Prop :=
  sorted cs /\
  (forall g, In g (keys cs) <-> exists s, In s l /\ st_group s = g) /\
  (forall g c, map_get g cs = Some c -> sorted (gc_fields c) /\ told_group fp l g c).
Lemma group_is_self s k : st_field s = None -> group_is (st_group s) k s = str_eqb (st_key s) k.
Proof. intro E. unfold group_is. now rewrite E, str_eqb_refl. Qed.
Lemma group_is_other g k s : ~ (st_group s = g /\ st_field s = None) -> group_is g k s = false.
Proof.
  intro H. unfold group_is. destruct (str_eqb (st_group s) g) eqn:E1; [|reflexivity]. destruct (st_field s) eqn:E2; [reflexivity|].
  apply str_eqb_eq in E1. tauto.
Qed.
Lemma fields_snoc l g s (F : str -> Prop) :
  (forall f, F f <-> exists x, In x l /\ st_group x = g /\ st_field x = Some f) ->
  forall f, (F f \/ st_group s = g /\ st_field s = Some f) <-> exists x, In x (l ++ [s]) /\ st_group x = g /\ st_field x = Some f.
Proof.
  intros H f. rewrite H. split.
  - intros [(x & I & E)|E]; [exists x; split; [apply in_app_iff; now left|exact E]|].
    exists s. split; [apply in_app_iff; right; now left|exact E].
  - intros (x & I & E). apply in_app_iff in I as [I|[<-|[]]]; eauto.
Qed.
Lemma told_group_other fp l g c s : st_group s <> g -> told_group fp l g c -> told_group fp (l ++ [s]) g c.
Proof.
  intros N (T1 & T2 & T3 & T4). unfold told_group. rewrite !last_such_snoc, !group_is_other by tauto.
  split; [assumption|]. split; [assumption|]. split.
  - intro f. rewrite <- (fields_snoc l g s _ T3). intuition congruence.
  - intros f x I. apply told_other; [tauto|auto].
Qed.
Lemma told_group_default fp l g : (forall s, In s l -> st_group s <> g) -> told_group fp l g gconf0.
Proof.
  intro H. unfold told_group. rewrite !last_such_none by (intros; apply group_is_other; intros (E & _); eapply H; eauto).
  split; [reflexivity|]. split; [reflexivity|]. split.
  - intro f. cbn. split; [intros []|]. intros (s & I & E & _). eapply H; eauto.
  - intros f x [].
Qed.
Lemma told_group_set fp l s c : suits fp s -> sorted (gc_fields c) -> told_group fp l (st_group s) c ->
  sorted (gc_fields (set_group fp s c)) /\ told_group fp (l ++ [s]) (st_group s) (set_group fp s c).
Proof.
  intros S SO (T1 & T2 & T3 & T4). unfold set_group. destruct (st_field s) as [f|] eqn:E.
  - cbn [gc_fields]. split; [now apply map_set_sorted|]. unfold told_group. cbn [gc_id gc_atomic_set gc_atomic gc_fields].
    rewrite !last_such_snoc, !group_is_other by (rewrite E; intros (_ & ?); discriminate).
    split; [assumption|]. split; [assumption|].
    assert (OLD : told_field fp l (st_group s) f (map_at fconf0 f (gc_fields c))).
    { unfold map_at. destruct (map_get f (gc_fields c)) as [x|] eqn:G.
      - apply T4. apply (map_get_In (gc_fields c) f x) in G; [exact G|now apply sorted_NoDup].
      - apply told_default. intros x I (E1 & E2). apply map_get_None in G. apply G. apply T3. eauto. }
    split.
    + intro h. fold (keys (map_set f (set_field fp s (map_at fconf0 f (gc_fields c))) (gc_fields c))).
      rewrite map_set_keys. rewrite <- (fields_snoc l (st_group s) s _ T3). rewrite E.
      split; [intros [->|I]; [right; auto|left; exact I]|intros [I|(_ & I)]; [right; exact I|left; congruence]].
    + intros h x I. apply map_get_In in I; [|apply sorted_NoDup; now apply map_set_sorted].
      rewrite map_get_set in I. destruct (str_eqb h f) eqn:EH.
      * apply str_eqb_eq in EH. subst h. inversion I; subst x. now apply told_set.
      * apply str_eqb_neq in EH. apply told_other; [rewrite E; intros (_ & X); congruence|].
        apply T4. apply map_get_In in I; [exact I|now apply sorted_NoDup].
  - assert (NF : forall h x, In (h, x) (gc_fields c) -> told_field fp (l ++ [s]) (st_group s) h x).
    { intros h x I. apply told_other; [rewrite E; intros (_ & X); discriminate|auto]. }
    assert (NK : forall h, In h (map fst (gc_fields c)) <-> exists x, In x (l ++ [s]) /\ st_group x = st_group s /\ st_field x = Some h).
    { intro h. rewrite <- (fields_snoc l (st_group s) s _ T3). rewrite E. intuition congruence. }
    unfold told_group. rewrite !last_such_snoc, !group_is_self by assumption.
    unfold suits in S. rewrite E in S. destruct S as (B & T). unfold group_option.
    destruct (str_eqb (st_key s) (bs "+atomic")) eqn:K1.
    { apply str_eqb_eq in K1. destruct (B K1) as (p & t & V & C). rewrite (as_bool_ok _ _ _ _ V C).
      cbn [jmap gc_fields gc_id gc_atomic gc_atomic_set]. split; [assumption|]. rewrite K1.
      change (str_eqb (bs "+atomic") (bs "+id")) with false. cbv iota. split; [assumption|].
      split; [split; [reflexivity|unfold bool_of; now rewrite V, C]|]. auto. }
    destruct (str_eqb (st_key s) (bs "+id")) eqn:K2.
    { apply str_eqb_eq in K2. destruct (T K2) as (p & t & V & C). rewrite (as_text_ok _ _ _ _ V C).
      cbn [jmap gc_fields gc_id gc_atomic gc_atomic_set]. split; [assumption|].
      split; [unfold text_of; now rewrite V, C|]. auto. }
    auto.
Qed.
Lemma told_step fp l cs s : suits fp s -> told fp l cs -> told fp (l ++ [s]) (set_config fp cs s).
Proof.
  intros S (SO & K & G). unfold set_config. split; [now apply map_set_sorted|]. split.
  - intro g. rewrite map_set_keys, K. split.
    + intros [->|(x & I & E)]; [exists s; split; [apply in_app_iff; right; now left|reflexivity]|].
      exists x. split; [apply in_app_iff; now left|exact E].
    + intros (x & I & E). apply in_app_iff in I as [I|[<-|[]]]; [right; eauto|left; congruence].
  - intros g c. rewrite map_get_set. destruct (str_eqb g (st_group s)) eqn:E.
    + apply str_eqb_eq in E. subst g. intro H. inversion H; subst c. unfold map_at.
      destruct (map_get (st_group s) cs) as [c|] eqn:M.
      * destruct (G _ _ M) as (G1 & G2). now apply told_group_set.
      * apply told_group_set; [assumption|constructor|]. apply told_group_default.
        intros x I E. apply map_get_None in M. apply M. apply K. eauto.
    + apply str_eqb_neq in E. intro H. destruct (G _ _ H) as (G1 & G2). split; [assumption|].
      apply told_group_other; [congruence|assumption].
Qed.
Lemma told_all fp : forall l l0 cs, Forall (suits fp) l -> told fp l0 cs -> told fp (l0 ++ l) (fold_left (set_config fp) l cs).
Proof.
  induction l as [|s l IH]; intros l0 cs F T; [now rewrite app_nil_r|]. inversion F; subst. cbn [fold_left].
  change (l0 ++ s :: l) with (l0 ++ [s] ++ l). rewrite app_assoc. apply IH; [assumption|]. now apply told_step.
Qed.
Lemma told_nil fp : told fp [] [].
Proof. split; [constructor|]. split; [|intros g c; discriminate]. intro g. cbn. split; [intros []|intros (s & [] & _)]. Qed.

(** ** All documents of an IOC *)
Definition doc_ok (fp : fpu) (pre : str) (d : jdoc) : Prop := doc_keys_ok d /\ Forall (suits fp) (doc_settings pre d).
Lemma records_step fp : forall (l : list (str * jdoc)) cs, Forall (fun x => doc_ok fp (fst x ++ [46]) (snd x)) l ->
  load_records fp (map (fun x => (fst x, (doc_events (snd x), true))) l) cs =
  (fold_left (set_config fp) (flat_map (fun x => doc_settings (fst x ++ [46]) (snd x)) l) cs, JOk tt).
Proof.
  induction l as [|[r d] l IH]; intros cs F; [reflexivity|]. inversion F as [|? ? (K & S) F2]; subst. cbn [map load_records fst snd flat_map] in *.
  rewrite (doc_step fp (Some r) d cs K S). rewrite fold_left_app. now apply IH.
Qed.
Lemma files_step fp : forall l cs, Forall (doc_ok fp []) l ->
  load_files fp (map (fun d => (doc_events d, true)) l) cs =
  (fold_left (set_config fp) (flat_map (doc_settings []) l) cs, JOk tt).
Proof.
  induction l as [|d l IH]; intros cs F; [reflexivity|]. inversion F as [|? ? (K & S) F2]; subst. cbn [map load_files flat_map] in *.
  rewrite (doc_step fp None d cs K S). rewrite fold_left_app. now apply IH.
Qed.
