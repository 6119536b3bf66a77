(** PVA links: every event is taken, and what does not crash. *)
From Coq Require Import String ZArith List Bool Arith Lia Sorted.
From Verif Require Import Base BaseProofs WireModel TypeModel TextModel ValueModel CopyModel GroupModel LinkModel LinkSpec LinkProofs2 LinkProofs3 LinkProofs4 LinkProofs5 LinkProofs6 LinkProofs7 LinkProofs8 LinkProofs9.
Import ListNotations.

Lemma complete_links l : forall x, x_links (fold_left (fun x r => complete r x) l x) = x_links x.
Proof. induction l as [|r l IH]; intros x; [reflexivity|]. cbn [fold_left]. rewrite IH. unfold complete. destruct (r_pact _); reflexivity. Qed.
Lemma after_links c x : x_links (after_put c x) = x_links x.
Proof. unfold after_put. destruct (x_chans x c) as [k|]; [|reflexivity]. destruct (alive k); [|reflexivity]. rewrite complete_links. reflexivity. Qed.
Lemma att_work x i c : inv x -> attached x i c -> attached (work x) i c.
Proof.
  intros IV (l & L & C). destruct (x_tasks x) as [|[t|t] r] eqn:T.
  - unfold work. rewrite T. exists l. tauto.
  - apply (work_keeps x i c l IV L C). rewrite T. discriminate.
  - unfold work. rewrite T. exists l. rewrite after_links. tauto.
Qed.
Lemma att_works fp i c n : forall x y, inv x -> attached x i c -> run fp x (repeat EWork n) = Some y -> attached y i c.
Proof.
  induction n as [|n IH]; intros x y IV A R; cbn in R; [injection R as <-; exact A|].
  apply (IH (work x) y); [exact (inv_step fp x EWork _ IV eq_refl)|exact (att_work x i c IV A)|exact R].
Qed.
Lemma queued_work fp c n : forall x, queued fp c x (repeat EWork n) = [].
Proof. induction n as [|n IH]; intros x; [reflexivity|]. cbn. apply IH. Qed.
Lemma account fp h x i c : reached fp h x -> attached x i c -> exists k, x_chans x c = Some k /\ taken c (x_out x) ++ k_events k = queued fp c start h.
Proof.
  intros R (l & L & C). pose proof (inv_reached _ _ _ R) as IV. destruct (i_att _ IV _ _ _ L C) as (k & K & _).
  destruct (account_run fp c h start x inv_start R) as [_ [[G _]|E]]; [congruence|]. exists k. split; [exact K|].
  unfold evs in E. rewrite K in E. exact E.
Qed.
Lemma taken_all fp h x i c : reached fp h x -> attached x i c -> exists m y, run fp x (repeat EWork m) = Some y /\ x_tasks y = [] /\ taken c (x_out y) = queued fp c start h.
Proof.
  intros R A. pose proof (inv_reached _ _ _ R) as IV. destruct (work_all fp (measure x) x IV (le_n _)) as (m & y & _ & Y & IY & T).
  exists m, y. split; [exact Y|]. split; [exact T|]. pose proof (att_works fp i c m x y IV A Y) as (l & L & C).
  destruct (i_att _ IY _ _ _ L C) as (k & K & I0). destruct (i_note _ IY _ _ K ltac:(intros E; rewrite E in I0; contradiction)) as [N1 N2].
  assert (E0 : k_events k = []). { destruct (k_events k) as [|e r]; [reflexivity|]. exfalso. pose proof (N2 (N1 ltac:(discriminate))) as I1. rewrite T in I1. contradiction. }
  destruct (account_run fp c (repeat EWork m) x y IV Y) as [_ [[G _]|E]]; [congruence|]. unfold evs in E. rewrite K, E0, app_nil_r, queued_work, app_nil_r in E. rewrite E.
  destruct (account fp h x i c R A) as (k' & K' & E'). rewrite K'. exact E'.
Qed.
Lemma chan_some x i l : inv x -> x_links x i = Some l -> cf_name (l_conf l) <> [] -> exists c k, chan_of i x = Some (l, c, k) /\ l_chan l = Some c /\ x_chans x c = Some k.
Proof.
  intros IV L N. unfold chan_of. rewrite L. destruct (l_chan l) as [c|] eqn:C; [|contradiction N; exact (i_name _ IV _ _ L C)].
  destruct (i_att _ IV _ _ _ L C) as (k & K & _). rewrite K. exists c, k. tauto.
Qed.
Lemma put_safe fp x i d w : inv x -> (forall l, x_links x i = Some l -> cf_name (l_conf l) <> []) -> step fp x (EPut i d w) <> None.
Proof.
  intros IV N. cbn [step]. unfold put_value. destruct (x_links x i) as [l|] eqn:L; [|discriminate].
  destruct (chan_some x i l IV L (N l eq_refl)) as (c & k & E & _ & _). rewrite E. destruct (_ && _); [discriminate|]. destruct d as [t z|s]; [destruct t; discriminate|discriminate].
Qed.
Lemma fwd_safe fp x i : inv x -> (forall l, x_links x i = Some l -> cf_name (l_conf l) <> []) -> step fp x (EFwd i) <> None.
Proof.
  intros IV N. cbn [step]. unfold forward. destruct (x_links x i) as [l|] eqn:L; [|discriminate].
  destruct (chan_some x i l IV L (N l eq_refl)) as (c & k & E & _ & _). rewrite E. destruct (_ && _); discriminate.
Qed.
Lemma get_off_safe fp x i t n l c : inv x -> x_links x i = Some l -> l_chan l = Some c -> latest (taken c (x_out x)) = None -> step fp x (EGet i t n) <> None.
Proof.
  intros IV L C V. cbn [step]. unfold get_value. rewrite L. destruct (i_att _ IV _ _ _ L C) as (k & K & _). unfold chan_of. rewrite L, C, K.
  destruct (valid k) eqn:E; [|discriminate]. exfalso. apply (valid_latest x c k IV K) in E. contradiction.
Qed.
(** the only other way to None *)
Lemma get_none fp x i t n l c k : chan_of i x = Some (l, c, k) -> step fp x (EGet i t n) = None ->
  read_value fp k l t n = Some (CFail RUB) \/ (exists b m, read_value fp k l t n = Some (CV (b, m)) /\ read_snap fp k l = CFail RUB).
Proof.
  intros E. cbn [step]. unfold get_value. destruct (x_links x i) as [l'|] eqn:L; [|discriminate]. rewrite E. destruct (valid k); [|discriminate]. cbn [negb].
  destruct (read_value fp k l t n) as [[[b m]|[]]|] eqn:RV; try discriminate; intros H; [|tauto].
  right. exists b, m. split; [reflexivity|]. destruct (read_snap fp k l) as [[[z e] s]|[]]; try discriminate. reflexivity.
Qed.
Lemma to_int_whole fp p : whole p -> to_int fp p <> CFail RUB.
Proof. destruct p; cbn; try discriminate; try contradiction. intros _. destruct (parse_i64 s); discriminate. Qed.
Lemma to_uint_whole fp p : whole p -> to_uint fp p <> CFail RUB.
Proof. destruct p; cbn; try discriminate; try contradiction. intros _. destruct (parse_u64 s); discriminate. Qed.
Lemma to_real_safe fp p : to_real fp p <> CFail RUB.
Proof. destruct p; cbn; try discriminate. destruct (fp_parse fp s); discriminate. Qed.
Lemma to_text_safe fp p : to_text fp p <> CFail RUB.
Proof. destruct p; cbn; discriminate. Qed.
Lemma as_int fp p : whole p -> as_z fp p WInt <> CFail RUB.
Proof. intros W. pose proof (to_int_whole fp p W) as H. unfold as_z, out_leaf. destruct (to_int fp p); cbn; [discriminate|congruence]. Qed.
Lemma as_uint fp p : whole p -> as_z fp p WUInt <> CFail RUB.
Proof. intros W. pose proof (to_uint_whole fp p W) as H. unfold as_z, out_leaf. destruct (to_uint fp p); cbn; [discriminate|congruence]. Qed.
Lemma as_real fp p : as_z fp p WReal <> CFail RUB.
Proof. pose proof (to_real_safe fp p) as H. unfold as_z, out_leaf. destruct (to_real fp p); cbn; [discriminate|congruence]. Qed.
Lemma cv_map_safe {A B} (f : A -> B) r : r <> CFail RUB -> cv_map f r <> CFail RUB.
Proof. destruct r; cbn; [discriminate|congruence]. Qed.
Definition safe {A} (o : option (cv A)) : Prop := o <> Some (CFail RUB).
Lemma safe_map {A B} (f : A -> B) o : safe o -> safe (option_map (cv_map f) o).
Proof. unfold safe. destruct o as [[a|r]|]; cbn; [discriminate| |discriminate]. intros H E. apply H. congruence. Qed.
Lemma safe_some {A} (r : cv A) : r <> CFail RUB -> safe (Some r).
Proof. unfold safe. intros H E. apply H. congruence. Qed.
Lemma scalar_safe fp t p : whole p -> safe (read_scalar fp t p).
Proof.
  intros W. unfold read_scalar. destruct t; try discriminate; apply safe_some; apply cv_map_safe; try (apply as_int; exact W); try (apply as_uint; exact W); try apply as_real; apply to_text_safe.
Qed.
Lemma map_cv_safe {A B} (f : A -> cv B) l : (forall a, f a <> CFail RUB) -> map_cv f l <> CFail RUB.
Proof.
  intros F. induction l as [|a l IH]; cbn; [discriminate|]. pose proof (F a) as H. destruct (f a); [|congruence]. destruct (map_cv f l); [discriminate|congruence].
Qed.
Lemma text_num_safe fp c s : text_num fp c s <> CFail RUB.
Proof.
  unfold text_num. destruct (_ =? _)%Z; [destruct (parse_bool s); discriminate|]. destruct (is_int c); [destruct (if int_signed c then _ else _); discriminate|].
  destruct (_ =? _)%Z; [destruct (fp_parse fp s); discriminate|]. destruct (_ =? _)%Z; [destruct (fp_parse fp s); discriminate|discriminate].
Qed.
Lemma array_safe fp t a n : whole (PArr a) -> safe (read_array fp t a n).
Proof.
  intros W. destruct a as [|c l|l|l]; [|contradiction| |]; unfold read_array; destruct t; try discriminate; try (apply safe_some; apply cv_map_safe; apply map_cv_safe; apply text_num_safe);
  destruct (Nat.eqb _ _); discriminate.
Qed.
Lemma enum_safe fp t z ch : safe (read_enum fp t z ch).
Proof. unfold read_enum. destruct t; try discriminate. destruct ch; discriminate. Qed.
Lemma node_safe fp v sub t n : (forall d, v = Some d -> whole (nd_data d)) -> (forall q d, sub q = Some d -> whole (nd_data d)) -> safe (read_node fp v sub t n).
Proof.
  intros V Sb. unfold read_node. cbv zeta. set (v' := match v with Some d => _ | None => None end).
  assert (V' : forall d, v' = Some d -> whole (nd_data d)). { intros d. unfold v'. destruct v as [d0|]; [|discriminate]. destruct (_ =? _)%Z; [apply Sb|]. intros E. apply V. exact E. }
  destruct v' as [d|]; [|destruct n; discriminate]. pose proof (V' d eq_refl) as W. destruct (_ <=? 0)%Z; [destruct n; discriminate|].
  destruct (tc_isarray _). { destruct (nd_data d); try discriminate. apply safe_map. apply array_safe. exact W. }
  destruct (_ && _).
  - destruct (sub [bs "index"]) as [ix|] eqn:IX; [|discriminate]. pose proof (as_int fp (nd_data ix) (Sb _ _ IX)) as H. destruct (as_z fp (nd_data ix) WInt); [|intros E; congruence]. apply safe_map. apply enum_safe.
  - apply safe_map. destruct (_ =? _)%Z; [|apply scalar_safe; exact W]. destruct (read_scalar fp t PNull); discriminate.
Qed.
Lemma snap_safe fp a b c d : (forall n, a = Some n -> whole (nd_data n)) -> (forall n, b = Some n -> whole (nd_data n)) -> (forall n, c = Some n -> whole (nd_data n)) -> snap_of fp a b c d <> CFail RUB.
Proof.
  intros A B C. unfold snap_of. cbv zeta.
  assert (NM : forall r k, (forall n, r = Some n -> whole (nd_data n)) -> match r with Some d => cv_map (u_cast k) (as_z fp (nd_data d) WUInt) | None => CV 0%Z end <> CFail RUB).
  { intros r k H. destruct r; [|discriminate]. apply cv_map_safe. apply as_uint. apply H. reflexivity. }
  set (tm := match a with Some _ => _ | None => CV (0%Z, 0%Z) end).
  assert (TM : tm <> CFail RUB).
  { unfold tm. destruct a as [n|]; [|discriminate]. pose proof (cv_map_safe (u_cast 4) _ (as_uint fp (nd_data n) (A n eq_refl))) as H. destruct (cv_map (u_cast 4) (as_z fp (nd_data n) WUInt)); [|congruence].
    apply cv_map_safe. apply NM. exact B. }
  destruct tm as [z|]; [|congruence]. pose proof (NM c 2%nat C) as H. destruct (match c with Some _ => _ | None => _ end); [|congruence]. destruct (negb _); [|discriminate].
  destruct d; [|discriminate]. apply cv_map_safe. apply to_text_safe.
Qed.
Lemma get_safe fp h x i l c w t n : reached fp h x -> x_links x i = Some l -> l_chan l = Some c -> latest (taken c (x_out x)) = Some w -> is_struct (field_at w (l_conf l)) = true ->
  (forall p d, w p = Some d -> whole (nd_data d)) -> step fp x (EGet i t n) <> None.
Proof.
  intros R L C W ST WH. pose proof (inv_reached _ _ _ R) as IV. destruct (i_att _ IV _ _ _ L C) as (k & K & _).
  pose proof (i_see _ IV _ _ K) as S. destruct (k_conn k) eqn:KC; [|congruence]. destruct S as (r & v & w' & RT & W' & SM).
  rewrite W in W'. apply some_inj in W'. subst w'. pose proof (i_fields _ IV _ _ _ _ L C K KC) as TC.
  assert (P : forall q, v q = w q) by exact SM.
  assert (WV : forall p d, v p = Some d -> whole (nd_data d)) by (intros p d E; rewrite P in E; exact (WH p d E)).
  assert (FA : field_at v (l_conf l) = field_at w (l_conf l)) by apply P.
  destruct (fields_of k v l (ex_intro _ r RT) TC) as (F1 & F2 & F3). rewrite FA in F3. destruct (F3 ST) as (F4 & F5 & F6 & F7).
  assert (PA : forall q d, part v (l_conf l) q = Some d -> whole (nd_data d)) by (intros q d; unfold part; destruct (is_struct (field_at v (l_conf l))); [apply WV|discriminate]).
  assert (E : chan_of i x = Some (l, c, k)) by (unfold chan_of; rewrite L, C, K; reflexivity). intros N.
  destruct (get_none fp x i t n l c k E N) as [RV|(b & m & _ & RS)].
  - revert RV. unfold read_value. rewrite F1. apply node_safe.
    + intros d. unfold value_at. destruct (is_struct (field_at v (l_conf l))); apply WV.
    + intros q d. rewrite F2. destruct (is_struct (field_at v (l_conf l))); [destruct (v (_ ++ [bs "value"])); [apply WV|discriminate]|destruct (field_at v (l_conf l)); [apply WV|discriminate]].
  - revert RS. unfold read_snap. rewrite F4, F5, F6, F7. apply snap_safe; intros d D; exact (PA _ _ D).
Qed.
