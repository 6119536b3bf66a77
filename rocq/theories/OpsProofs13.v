(** All members which a field shows. *)
From Coq Require Import String ZArith List Bool Lia Arith.
From Verif Require Import Base BaseProofs WireModel TypeModel TextModel ValueModel MarkModel CopyModel NtModel GroupModel OpsModel OpsSpec
  OpsProofs OpsProofs2 OpsProofs3 OpsProofs4 OpsProofs5 OpsProofs6 OpsProofs7 OpsProofs8 OpsProofs10 OpsProofs11.
Import ListNotations.
Local Open Scope Z_scope.

Definition at_node (node : list str) (l : list (list str * src)) : list assignment := map (fun x => (node ++ fst x, snd x)) l.
Definition had (ms : list member) (l : list (list str * src)) : list (list str * src) := filter (fun x => has_member ms (fst x)) l.
Lemma at_node_app node a b : at_node node (a ++ b) = at_node node a ++ at_node node b.
Proof. apply map_app. Qed.
Lemma had_app ms a b : had ms (a ++ b) = had ms a ++ had ms b.
Proof. apply filter_app. Qed.
Definition limit_paths : list (list str) :=
  [p2 "display" "limitHigh"; p2 "display" "precision"; p2 "control" "limitLow"; p2 "control" "limitHigh";
   p2 "valueAlarm" "lowAlarmLimit"; p2 "valueAlarm" "lowWarningLimit"; p2 "valueAlarm" "highWarningLimit"; p2 "valueAlarm" "highAlarmLimit"].
Definition limits_go (ms : list member) : bool :=
  forallb (fun q => Bool.eqb (has_member ms q) (has_member ms (p2 "display" "limitLow"))) limit_paths.
Lemma limits_together c : limits_go (node_members MScalar c) = true.
Proof.
  unfold node_members, channel_def, channel_type. destruct (ch_link c); [reflexivity|]. cbn [andb].
  destruct (ch_type c); destruct (ch_elems c =? 1); destruct (ch_text c); vm_compute; reflexivity.
Qed.
Lemma limits_has ms q : limits_go ms = true -> In q limit_paths -> has_member ms q = has_member ms (p2 "display" "limitLow").
Proof. intros H I. unfold limits_go in H. rewrite forallb_forall in H. apply eqb_prop, H, I. Qed.
Definition exactly (x : op unit) (l : list assignment) : Prop := added x (fun a => a = l).
Lemma exactly_ret : exactly (ret tt) [].
Proof. apply added_ret. reflexivity. Qed.
Lemma exactly_seq x y a b : exactly x a -> exactly y b -> exactly (seq x y) (a ++ b).
Proof. apply added_seq_eq. Qed.
Lemma exactly_set_if ms node q v : exactly (set_if ms node q v) (at_node node (had ms [(q, v)])).
Proof. unfold set_if. cbn [had filter fst]. destruct (has_member ms q); [apply added_assign; reflexivity|apply added_ret; reflexivity]. Qed.
Lemma exactly_set ms node q v : exactly (set ms node q v) (at_node node (had ms [(q, v)])).
Proof. unfold set. cbn [had filter fst]. destruct (has_member ms q); [apply added_assign; reflexivity|apply added_throw]. Qed.
Lemma exactly_given {A} ms node (o : option A) k (l : A -> list (list str * src)) :
  (forall x, exactly (k x) (at_node node (had ms (l x)))) -> exactly (match o with Some x => k x | None => ret tt end) (at_node node (had ms (given o l))).
Proof. intros H. destruct o; [apply H|apply exactly_ret]. Qed.
Lemma exactly_more ms node x y a b :
  exactly x (at_node node (had ms a)) -> exactly y (at_node node (had ms b)) -> exactly (seq x y) (at_node node (had ms (a ++ b))).
Proof. intros Hx Hy. rewrite had_app, at_node_app. apply exactly_seq; assumption. Qed.
Lemma had_none ms l : (forall q v, In (q, v) l -> has_member ms q = false) -> had ms l = [].
Proof.
  intros H. induction l as [|(q & v) l IH]; [reflexivity|]. cbn [had filter fst]. rewrite (H q v (or_introl eq_refl)). apply IH.
  intros q' v' I. apply (H q' v'). right. exact I.
Qed.
Section Moment.
  Variables (fp : fpu) (w : world) (m : moment).
  Let W := frozen w m.
  Lemma exactly_props ms ch node : limits_go ms = true ->
    added (get_properties W ms ch node) (fun a => exists p, mo_props m ch = Some p /\ a = at_node node (had ms (prop_list p))).
  Proof.
    intros G. unfold get_properties, W. cbv zeta. cbn [frozen w_props]. apply added_call. intros p Ep.
    eapply added_imp; [|intros a Ha; exists p; split; [exact Ep|exact Ha]]. unfold prop_list.
    apply exactly_more; [apply (exactly_given ms node (pr_units p)); intros; apply exactly_set_if|].
    apply exactly_more; [apply (exactly_given ms node (pr_enum p)); intros; apply exactly_set_if|].
    rewrite !app_assoc. apply exactly_more; [|apply exactly_set_if]. rewrite <- !app_assoc.
    destruct (has_member ms (p2 "display" "limitLow")) eqn:El.
    - apply exactly_more; [|apply exactly_more].
      + apply (exactly_given ms node (pr_gr p)). intros x. cbn [app].
        apply (exactly_more ms node _ _ [_] ((p2 "display" "limitHigh", PReal (snd x)) :: _)); [apply exactly_set|].
        apply (exactly_more ms node _ _ [_] _); [apply exactly_set|].
        apply (exactly_given ms node (pr_prec p)). intros z. apply exactly_set.
      + apply (exactly_given ms node (pr_ctrl p)). intros x. apply (exactly_more ms node _ _ [_] [_]); apply exactly_set.
      + apply (exactly_given ms node (pr_al p)). intros x.
        apply (exactly_more ms node _ _ [_] [_; _; _]); [apply exactly_set|]. apply (exactly_more ms node _ _ [_] [_; _]); [apply exactly_set|].
        apply (exactly_more ms node _ _ [_] [_]); apply exactly_set.
    - rewrite had_none; [apply exactly_ret|]. intros q v I.
      assert (Q : q = p2 "display" "limitLow" \/ In q limit_paths).
      { clear - I. destruct (pr_gr p), (pr_ctrl p), (pr_al p), (pr_prec p); cbn [given app In] in I;
          repeat destruct I as [I | I]; try contradiction; inversion I; subst; unfold limit_paths; cbn [In]; tauto. }
      destruct Q as [-> | Q]; [exact El|rewrite (limits_has ms q G Q); exact El].
  Qed.
  Lemma message_same x : alarm_message w x = message_of w x.
  Proof.
    unfold alarm_message, message_of. destruct (c_str (m_amsg x)); [|reflexivity]. cbn [is_nil].
    destruct (m_status x =? 0); [reflexivity|]. cbn [negb andb orb]. rewrite Z.ltb_antisym. destruct (22 <=? m_status x); reflexivity.
  Qed.
  Lemma alarm_same x node : alarm_part w x node = at_node node (alarm_members w x).
  Proof. unfold alarm_part, alarm_members, at_node. cbn [map fst snd]. rewrite message_same. reflexivity. Qed.
  Lemma time_same x mask node : time_part x mask node = at_node node (time_members x mask).
  Proof. unfold time_part, time_members, at_node. cbn [map fst snd]. reflexivity. Qed.

  (** what a change shows, in order *)
  Definition value_rel (f : cfield) (c : chan) : list str :=
    match ftype f with MScalar => if is_enum (ch_type c) then p2 "value" "index" else [bs "value"] | _ => [] end.
  Lemma value_rel_ok f c : value_member f c = node_of f ++ value_rel f c.
  Proof. unfold value_member, value_rel. destruct (ftype f); try destruct (is_enum _); rewrite ?app_nil_r; reflexivity. Qed.
  Definition shown_list (f : cfield) (c : chan) (x : change) (mask : Z) (p : option props) (y : option meta) (r : option raw) : list (list str * src) :=
    (if match ftype f with MScalar => true | _ => false end && c_property x then given p (fun p => had (node_members MScalar c) (prop_list p)) else []) ++
    (if has_props f && (c_value x || c_alarm x) then given y (fun y => (if c_alarm x then alarm_members w y else []) ++ time_members y mask) else []) ++
    (if match ftype f with MScalar | MPlain | MAny => true | _ => false end && c_value x
     then given r (fun r => [(value_rel f c, shown_value fp c (value_code (ftype f) (cf_any f) c) r)]) else []).
  Definition all_there (f : cfield) (x : change) : Prop :=
    (ftype f = MScalar -> c_property x = true -> mo_props m (chan_name f) <> None) /\
    (with_time f -> c_value x = true \/ c_alarm x = true -> mo_meta m (chan_name f) <> None) /\
    (carries (ftype f) -> c_value x = true -> mo_value m (chan_name f) <> None).
  Lemma added_read f c x mask : mapped f c -> ftype f <> MConst ->
    added (ioc_get fp W (ftype f) (fc_const (cf_conf f)) (cf_any f) mask x (chan_name f) (Some c) (node_of f))
      (fun a => all_there f x /\
         a = at_node (node_of f) (shown_list f c x mask (mo_props m (chan_name f)) (mo_meta m (chan_name f)) (mo_value m (chan_name f)))).
  Proof.
    intros (Hc & Ht) Nc. unfold ioc_get, shown_list, all_there, with_time, has_props. cbv zeta.
    destruct (ftype f) eqn:Et; cbn [andb];
      try (apply added_ret; split; [split; [discriminate|split; [intros [X | X]; discriminate|intros []]]|reflexivity]); try contradiction.
    - set (PR := if c_property x then given (mo_props m (chan_name f)) (fun p => had (node_members MScalar c) (prop_list p)) else []).
      set (TI := if c_value x || c_alarm x then given (mo_meta m (chan_name f)) (fun y => (if c_alarm x then alarm_members w y else []) ++ time_members y mask) else []).
      set (VA := if c_value x then given (mo_value m (chan_name f)) (fun r => [(value_rel f c, shown_value fp c (value_code MScalar (cf_any f) c) r)]) else []).
      eapply (added_seq _ _ (fun a => (c_property x = true -> mo_props m (chan_name f) <> None) /\ a = at_node (node_of f) PR)
         (fun a => (c_value x = true \/ c_alarm x = true -> mo_meta m (chan_name f) <> None) /\ (c_value x = true -> mo_value m (chan_name f) <> None) /\ a = at_node (node_of f) (TI ++ VA))).
      + unfold PR. destruct (c_property x); [|apply added_ret; split; [discriminate|reflexivity]].
        eapply added_imp; [apply exactly_props, limits_together|]. intros a (p & -> & ->). split; [discriminate|reflexivity].
      + eapply (added_seq _ _ (fun a => (c_value x = true \/ c_alarm x = true -> mo_meta m (chan_name f) <> None) /\ a = at_node (node_of f) TI)
          (fun a => (c_value x = true -> mo_value m (chan_name f) <> None) /\ a = at_node (node_of f) VA)).
        * unfold TI. destruct (c_value x || c_alarm x) eqn:Ev.
          -- eapply added_imp; [apply added_time|]. intros a (y & -> & ->). split; [discriminate|]. cbn [given].
             rewrite at_node_app, time_same. f_equal. destruct (c_alarm x); [apply alarm_same|reflexivity].
          -- apply added_ret. split; [|reflexivity]. apply orb_false_elim in Ev. destruct Ev as (E1 & E2). rewrite E1, E2. intros [X | X]; discriminate.
        * unfold VA. destruct (c_value x); [|apply added_ret; split; [discriminate|reflexivity]].
          eapply added_imp; [apply added_value|]. intros a (r & -> & ->). split; [discriminate|]. cbn [given at_node map fst snd]. f_equal. f_equal.
          destruct (scalar_struct MScalar (cf_any f) c I) as (Sa & Sb). rewrite <- andb_assoc, Sb, Sa. unfold value_rel. rewrite Et.
          destruct (is_enum (ch_type c)) eqn:Ee; [|rewrite andb_false_r; reflexivity].
          assert (ch_type c = DEnum) as E by (destruct (ch_type c); try discriminate; reflexivity). rewrite (Ht E). cbn [andb Z.eqb Pos.eqb].
          rewrite <- app_assoc. reflexivity.
        * intros a b (A1 & ->) (B1 & ->). split; [exact A1|split; [exact B1|]]. rewrite at_node_app. reflexivity.
      + intros a b (A1 & ->) (B1 & B2 & ->). split; [split; [auto|split; [auto|auto]]|]. rewrite (at_node_app _ PR). reflexivity.
    - destruct (scalar_struct MPlain (cf_any f) c I) as (Sa & Sb).
      eapply added_seq; [apply (added_ret (fun a => a = [])); reflexivity| |intros a b -> R; exact R].
      eapply added_seq; [apply (added_ret (fun a => a = [])); reflexivity| |intros a b -> R; exact R].
      destruct (c_value x); [|apply added_ret; split; [split; [discriminate|split; [intros [X | X]; discriminate|discriminate]]|reflexivity]].
      eapply added_imp; [apply added_value|]. intros a (r & -> & ->). split; [split; [discriminate|split; [intros [X | X]; discriminate|discriminate]]|].
      cbn [given app at_node map fst snd]. f_equal. f_equal.
      rewrite <- andb_assoc, Sb, Sa, andb_false_r. unfold value_rel. rewrite Et, app_nil_r. reflexivity.
    - destruct (scalar_struct MAny (cf_any f) c Ht) as (Sa & Sb).
      eapply added_seq; [apply (added_ret (fun a => a = [])); reflexivity| |intros a b -> R; exact R].
      eapply added_seq; [apply (added_ret (fun a => a = [])); reflexivity| |intros a b -> R; exact R].
      destruct (c_value x); [|apply added_ret; split; [split; [discriminate|split; [intros [X | X]; discriminate|discriminate]]|reflexivity]].
      eapply added_imp; [apply added_value|]. intros a (r & -> & ->). split; [split; [discriminate|split; [intros [X | X]; discriminate|discriminate]]|].
      cbn [given app at_node map fst snd]. f_equal. f_equal.
      rewrite <- andb_assoc, Sb, Sa, andb_false_r. unfold value_rel. rewrite Et, app_nil_r. reflexivity.
    - eapply added_seq; [apply (added_ret (fun a => a = [])); reflexivity| |intros a b -> R; exact R].
      eapply (added_seq _ _ _ (fun a => a = [])); [|apply added_ret; reflexivity|intros a b R ->; rewrite app_nil_r; exact R].
      destruct (c_value x || c_alarm x) eqn:Ev.
      + eapply added_imp; [apply added_time|]. intros a (y & -> & ->). split; [split; [discriminate|split; [discriminate|intros []]]|]. cbn [given app]. rewrite app_nil_r.
        rewrite at_node_app, time_same. f_equal. destruct (c_alarm x); [apply alarm_same|reflexivity].
      + apply added_ret. split; [|reflexivity]. apply orb_false_elim in Ev. destruct Ev as (E1 & E2). rewrite E1, E2.
        split; [discriminate|split; [intros _ [X | X]; discriminate|intros []]].
  Qed.
  Lemma shown_ok f c r : mapped f c -> carries (ftype f) -> readable c -> shown fp (shows_text f c) c r (shown_value fp c (value_code (ftype f) (cf_any f) c) r).
  Proof.
    intros (Hc & Ht) Ca (Rl & Rn & Re).
    assert (Code : value_code (ftype f) (cf_any f) c =
       if match ftype f with MScalar => is_enum (ch_type c) | _ => false end then tc_Struct
       else if is_char (ch_type c) && negb (ch_elems c =? 1) && shows_text f c then tc_String
       else if negb (ch_elems c =? 1) then tc_arrayOf (from_dbr (ch_type c)) else from_dbr (ch_type c)).
    { unfold shows_text. destruct (ftype f); try contradiction; cbn [value_code]; try (unfold channel_type; rewrite Rl; cbn [andb]; destruct (is_char _ && _ && _); reflexivity).
      rewrite Ht. unfold any_code. rewrite andb_false_r. destruct (ch_elems c =? 1), (ch_type c); reflexivity. }
    unfold shown_value. rewrite Code. constructor.
    - intros E N z l ->. rewrite E. cbn [Z.eqb Pos.eqb negb andb]. rewrite andb_false_r. cbn [andb].
      destruct (ftype f); try contradiction; destruct (ch_type c); try contradiction; reflexivity.
    - intros E T t l -> Pt Lt. rewrite E, T. cbn [Z.eqb Pos.eqb negb andb is_char is_enum].
      rewrite (firstn_all2 t) by exact Lt. rewrite c_str_plain by exact Pt. destruct (ftype f); try contradiction; reflexivity.
    - intros E T l -> F. rewrite T. destruct (Z.eqb_spec (ch_elems c) 1); [contradiction|]. cbn [is_char andb is_string].
      f_equal. f_equal. clear - F. induction F as [|t l (Pt & Lt) F IH]; [reflexivity|]. cbn [map]. rewrite IH.
      rewrite (firstn_all2 t) by lia. rewrite c_str_plain by exact Pt. reflexivity.
    - intros E N NT l ->. destruct (Z.eqb_spec (ch_elems c) 1); [contradiction|]. cbn [negb andb]. rewrite andb_true_r.
      assert (Sc : ftype f = MScalar -> is_enum (ch_type c) = false).
      { intros Es. rewrite Es in Ht. destruct (ch_type c); try reflexivity. exfalso. apply E, Ht, eq_refl. }
      assert (En : match ftype f with MScalar => is_enum (ch_type c) | _ => false end = false) by (destruct (ftype f); try reflexivity; apply Sc, eq_refl).
      rewrite En.
      assert (Tx : is_char (ch_type c) && shows_text f c = false).
      { destruct (ch_type c); try reflexivity. destruct (shows_text f c); [|reflexivity]. exfalso. apply NT. split; reflexivity. }
      rewrite Tx. destruct (ch_type c); try contradiction; reflexivity.
    - intros E T Tx l -> F L. rewrite T, Tx. destruct (Z.eqb_spec (ch_elems c) 1) as [|Hne]; [lia|]. cbn [is_char is_enum negb andb].
      replace (match ftype f with MScalar => false | _ => false end) with false by (destruct (ftype f); reflexivity).
      replace (0 <? ch_elems c) with true by (symmetry; apply Z.ltb_lt; lia). change (tc_String =? tc_String) with true. cbn [andb].
      f_equal. unfold pad. set (n := Z.to_nat (ch_elems c)). assert (Hn : (length l < n)%nat) by (unfold n; lia).
      rewrite firstn_firstn, Nat.min_l by lia. rewrite firstn_app, (firstn_all2 l) by lia.
      assert (Hr : exists k, firstn (n - 1 - length l) (repeat 0 n) = repeat 0 k).
      { exists (n - 1 - length l)%nat. clear - Hn. replace n with ((n - 1 - length l) + (S (length l)))%nat at 2 by lia. rewrite repeat_app.
        rewrite firstn_app, repeat_length, Nat.sub_diag, firstn_all2 by (rewrite repeat_length; lia). rewrite app_nil_r. reflexivity. }
      destruct Hr as (k & ->). rewrite map_app. clear - F.
      assert (Z0 : forall j, c_str (map (u_cast 1) (repeat 0 j)) = []) by (destruct j; reflexivity).
      induction F as [|z l Hz F IH]; [apply Z0|]. cbn [map app].
      assert (U : u_cast 1 z = z) by (unfold u_cast; rewrite Z.mod_small; [reflexivity|change (2 ^ (8 * Z.of_nat 1)) with 256; lia]).
      rewrite U. cbn [c_str]. destruct (Z.eqb_spec z 0); [lia|]. rewrite IH. reflexivity.
  Qed.
End Moment.

(** contents *)
Lemma prop_list_paths p q v : In (q, v) (prop_list p) -> In q prop_paths.
Proof.
  unfold prop_list. intros I. destruct (pr_units p), (pr_enum p), (pr_gr p), (pr_ctrl p), (pr_al p), (pr_prec p); cbn [given app In] in I;
    repeat destruct I as [I | I]; try contradiction; inversion I; subst; unfold prop_paths; cbn [In]; tauto.
Qed.
Lemma prop_list_nodup p : NoDup (map fst (prop_list p)).
Proof.
  apply nodup_paths_ok. unfold prop_list. destruct (pr_units p), (pr_enum p), (pr_gr p), (pr_ctrl p), (pr_al p), (pr_prec p); cbn [given app map fst]; vm_compute; reflexivity.
Qed.
Lemma NoDup_had ms l : NoDup (map fst l) -> NoDup (map fst (had ms l)).
Proof.
  induction l as [|(q & v) l IH]; intros N; [constructor|]. inversion N as [|? ? Nq Nl]; subst. cbn [had filter fst]. destruct (has_member ms q); [|apply IH, Nl].
  cbn [map fst]. constructor; [|apply IH, Nl]. intros I. apply Nq. apply in_map_iff in I. destruct I as ((q' & v') & E & I). cbn in E. subst q'.
  apply filter_In in I. destruct I as (I & _). apply (in_map fst _ _ I).
Qed.
Lemma NoDup_join {A} (a b : list A) : NoDup a -> NoDup b -> (forall x, In x a -> ~ In x b) -> NoDup (a ++ b).
Proof.
  intros Na Nb D. induction a as [|x a IH]; [exact Nb|]. inversion Na; subst. cbn [app]. constructor.
  - intros I. apply in_app_or in I. destruct I as [I | I]; [contradiction|]. exact (D x (or_introl eq_refl) I).
  - apply IH; [assumption|]. intros y I. apply D. right. exact I.
Qed.
Lemma content_list node l q v : NoDup (map fst l) -> In (q, v) l -> content_at (at_node node l) (node ++ q) v.
Proof.
  intros N I. split; [apply (in_map (fun x => (node ++ fst x, snd x)) l (q, v) I)|]. intros v' I'.
  apply in_map_iff in I'. destruct I' as ((q' & x) & E & Ix). cbn [fst snd] in E. inversion E as [[E1 E2]]. apply app_inv_head in E1. subst q' x.
  clear - N I Ix. induction l as [|(k & y) l IH]; [destruct I|]. cbn [map fst] in N. inversion N as [|? ? Nk Nl]; subst.
  destruct I as [I | I], Ix as [Ix | Ix].
  - congruence.
  - inversion I; subst. exfalso. apply Nk. apply (in_map fst _ _ Ix).
  - inversion Ix; subst. exfalso. apply Nk. apply (in_map fst _ _ I).
  - exact (IH Nl I Ix).
Qed.
Definition rest_paths (f : cfield) (c : chan) : list (list str) :=
  [p2 "alarm" "status"; p2 "alarm" "severity"; p2 "alarm" "message"; p2 "timeStamp" "secondsPastEpoch"; p2 "timeStamp" "nanoseconds"; p2 "timeStamp" "userTag";
   value_rel f c].
Lemma shown_nodup fp w f c x mask p y r : NoDup (map fst (shown_list fp w f c x mask p y r)).
Proof.
  assert (V : value_rel f c = [] \/ value_rel f c = [bs "value"] \/ value_rel f c = p2 "value" "index").
  { unfold value_rel. destruct (ftype f); auto. destruct (is_enum _); auto. }
  unfold shown_list. rewrite map_app. apply NoDup_join.
  - destruct (_ && _); [|constructor]. destruct p; [|constructor]. cbn [given]. apply NoDup_had, prop_list_nodup.
  - apply nodup_paths_ok. destruct (has_props f && _), (_ && c_value x), y, r, (c_alarm x); cbn [given app map fst alarm_members time_members];
      try reflexivity; destruct V as [-> | [-> | ->]]; vm_compute; reflexivity.
  - intros q I I2.
    assert (P : In q prop_paths).
    { destruct (_ && _) in I; [|destruct I]. destruct p; [|destruct I]. apply in_map_iff in I. destruct I as ((q' & v') & E & I). cbn in E. subst q'.
      apply filter_In in I. destruct I as (I & _). eapply prop_list_paths, I. }
    assert (R : In q (rest_paths f c)).
    { unfold rest_paths. destruct (has_props f && _), (_ && c_value x), y, r, (c_alarm x); cbn [given app map fst alarm_members time_members In] in *; tauto. }
    clear - P R V. assert (F : fresh q prop_paths = true).
    { unfold rest_paths in R. cbn [In] in R. destruct V as [V | [V | V]]; rewrite V in R; repeat destruct R as [<- | R]; try contradiction; vm_compute; reflexivity. }
    exact (fresh_ok _ _ F P).
Qed.
Lemma list_members fp w m f c x mask :
  mapped f c -> readable c -> ftype f <> MConst -> all_there m f x ->
  event_members fp w m f c x mask (at_node (node_of f) (shown_list fp w f c x mask (mo_props m (chan_name f)) (mo_meta m (chan_name f)) (mo_value m (chan_name f)))).
Proof.
  intros Hm Hr Nc (Tp & Tt & Tv).
  assert (In1 : forall q v, In (q, v) (shown_list fp w f c x mask (mo_props m (chan_name f)) (mo_meta m (chan_name f)) (mo_value m (chan_name f))) ->
     content_at (at_node (node_of f) (shown_list fp w f c x mask (mo_props m (chan_name f)) (mo_meta m (chan_name f)) (mo_value m (chan_name f)))) (node_of f ++ q) v)
    by (intros q v; apply content_list, shown_nodup).
  assert (HP : with_time f -> has_props f = true) by (intros [E | E]; unfold has_props; rewrite E; reflexivity).
  constructor.
  - intros Es Ep. destruct (mo_props m (chan_name f)) as [p|] eqn:E; [|exfalso; apply (Tp Es Ep), eq_refl]. exists p. split; [reflexivity|].
    intros q v I Hq. apply In1. unfold shown_list. rewrite Es, Ep. cbn [andb given]. apply in_or_app. left. apply filter_In. split; [exact I|].
    unfold in_type in Hq. rewrite Es in Hq. exact Hq.
  - intros Wt Ev. destruct (mo_meta m (chan_name f)) as [y|] eqn:E; [|exfalso; apply (Tt Wt Ev), eq_refl]. exists y. split; [reflexivity|].
    intros q v I. apply In1. unfold shown_list. rewrite (HP Wt). apply in_or_app. right. apply in_or_app. left.
    replace (c_value x || c_alarm x) with true by (symmetry; apply orb_true_iff; exact Ev). cbn [andb given]. apply in_or_app. right. exact I.
  - intros Wt Ea. destruct (mo_meta m (chan_name f)) as [y|] eqn:E; [|exfalso; apply (Tt Wt (or_intror Ea)), eq_refl]. exists y. split; [reflexivity|].
    intros q v I. apply In1. unfold shown_list. rewrite (HP Wt), Ea. apply in_or_app. right. apply in_or_app. left.
    rewrite orb_true_r. cbn [andb given]. apply in_or_app. left. exact I.
  - intros Ca Ev. destruct (mo_value m (chan_name f)) as [r|] eqn:E; [|exfalso; apply (Tv Ca Ev), eq_refl].
    exists r, (shown_value fp c (value_code (ftype f) (cf_any f) c) r). split; [reflexivity|]. split; [apply shown_ok; assumption|].
    rewrite value_rel_ok. apply In1. unfold shown_list. rewrite Ev. apply in_or_app. right. apply in_or_app. right.
    destruct (ftype f); try contradiction; left; reflexivity.
  - intros p v I. apply in_map_iff in I. destruct I as ((q & v') & E & I). cbn [fst snd] in E. inversion E; subst p v'. clear E.
    unfold shown_list in I. apply in_app_or in I. destruct I as [I | I]; [|apply in_app_or in I; destruct I as [I | I]].
    + right. exists q. split; [reflexivity|]. left. destruct (ftype f); try destruct I. destruct (c_property x); [|destruct I]. cbn [andb] in I.
      destruct (mo_props m (chan_name f)) as [pp|]; [|destruct I]. apply filter_In in I. destruct I as (I & _). split; [reflexivity|split; [reflexivity|]]. exists pp. auto.
    + right. exists q. split; [reflexivity|]. right. destruct (has_props f && (c_value x || c_alarm x)) eqn:Eb; [|destruct I].
      apply andb_prop in Eb. destruct Eb as (Eb & Ec). apply has_props_iff in Eb. apply orb_true_iff in Ec.
      destruct (mo_meta m (chan_name f)) as [y|]; [|destruct I]. cbn [given] in I. apply in_app_or in I. destruct I as [I | I].
      * right. destruct (c_alarm x); [|destruct I]. split; [exact Eb|split; [reflexivity|]]. exists y. auto.
      * left. split; [exact Eb|split; [exact Ec|]]. exists y. auto.
    + left. destruct (_ && c_value x) eqn:Eb; [|destruct I]. apply andb_prop in Eb. destruct Eb as (Eb & Ec).
      destruct (mo_value m (chan_name f)) as [r|]; [|destruct I]. destruct I as [I | []]. inversion I; subst. split; [destruct (ftype f); try discriminate; exact Logic.I|].
      split; [exact Ec|]. symmetry. apply value_rel_ok.
Qed.
(** the event of a field of a group, and of a single PV *)
Lemma part_members fp w m f c x a :
  mapped f c -> readable c -> ftype f <> MConst -> part_of fp w m f x a -> event_members fp w m f c x (mask_of w f) a.
Proof.
  intros Hm Hr Nc Hp. destruct (Hp {| s_acts := []; s_val := [] |}) as (s' & E & Ev). unfold read_field in E. rewrite (proj1 Hm) in E.
  destruct (added_read fp w m f c x (mask_of w f) Hm Nc _ _ _ E) as (d & a' & _ & Ev' & H). destruct (H eq_refl) as (T & ->).
  cbn [s_val app] in Ev, Ev'. rewrite <- Ev, Ev'. apply list_members; assumption.
Qed.
Lemma pv_members fp w c ch m e a :
  readable c -> (ch_type c = DEnum -> ch_elems c = 1) -> pv_shows fp w c ch m e a ->
  event_members fp w m (pv_field c ch) c (match e with S1Value x => x | S1Props => props_only end) 0 a.
Proof.
  intros Hr En Hp. destruct (Hp {| s_acts := []; s_val := [] |}) as (s' & E & Ev).
  assert (Hm : mapped (pv_field c ch) c) by (split; [reflexivity|exact En]).
  destruct (added_read fp w m (pv_field c ch) c (match e with S1Value x => x | S1Props => props_only end) 0 Hm ltac:(discriminate) _ _ _ E) as (d & a' & _ & Ev' & H).
  destruct (H eq_refl) as (T & ->). cbn [s_val app] in Ev, Ev'. rewrite <- Ev, Ev'. apply list_members; [assumption|assumption|discriminate|assumption].
Qed.
(** all of a field: the members of Q:form first *)
Definition form_part (w : world) (f : cfield) (c : chan) : list assignment :=
  match ftype f with
  | MScalar => if has_member (node_members MScalar c) (p3 "display" "form" "choices")
               then at_node (node_of f) (form_list (ca_form (w_attr w (chan_name f)))) else []
  | _ => []
  end.
Lemma shows_members fp w m f c a :
  mapped f c -> readable c -> ftype f <> MConst -> shows fp w m f a ->
  exists a0 a1, a = a0 ++ a1 /\ a0 = form_part w f c /\ event_members fp w m f c everything (mask_of w f) a1.
Proof.
  intros Hm Hr Nc Hs. destruct (Hs {| s_acts := []; s_val := [] |}) as (s' & E & Ev). unfold get_field in E. rewrite (proj1 Hm) in E.
  set (a0 := form_part w f c).
  assert (A : added (seq (initialize (frozen w m) (ftype f) c (chan_name f) (node_of f)) (read_field fp (frozen w m) everything f))
    (fun a => exists a1, a = a0 ++ a1 /\ event_members fp w m f c everything (mask_of w f) a1)).
  { eapply (added_seq _ _ (fun a => a = a0)).
    - unfold initialize, a0, form_part. cbv zeta. destruct (ftype f); try (apply added_ret; reflexivity).
      destruct (has_member _ _); [|apply added_ret; reflexivity]. unfold form_list.
      eapply (added_seq _ _ (fun a => a = [_])); [apply added_assign; reflexivity| |intros a1 b -> Hb; cbn [at_node map fst snd]; cbn [app]; f_equal; exact Hb].
      cbn [frozen w_attr]. destruct (ca_form (w_attr w (chan_name f))) as [i|]; [|apply added_ret; reflexivity]. apply added_set. reflexivity.
    - unfold read_field. rewrite (proj1 Hm). eapply added_imp; [apply (added_read fp w m f c everything (mask_of w f) Hm Nc)|].
      intros a1 (T & ->). apply (list_members fp w m f c everything (mask_of w f)); assumption.
    - intros a1 b -> Hb. exists b. split; [reflexivity|exact Hb]. }
  destruct (A _ _ _ E) as (d & a' & _ & Ev' & H). destruct (H eq_refl) as (a1 & -> & M). cbn [s_val app] in Ev, Ev'. rewrite Ev in Ev'.
  subst a. exists a0, a1. split; [exact Ev'|split; [reflexivity|exact M]].
Qed.
