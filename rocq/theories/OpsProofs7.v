(** GET of a group: success and completeness. *)
From Coq Require Import String ZArith List Bool Lia.
From Verif Require Import Base BaseProofs WireModel TypeModel TextModel ValueModel MarkModel CopyModel NtModel GroupModel OpsModel OpsSpec
  OpsProofs OpsProofs2 OpsProofs3 OpsProofs4 OpsProofs5 OpsProofs6.
Import ListNotations.
Local Open Scope Z_scope.

Lemma has_in ms l p : forallb (has_member ms) l = true -> In p l -> has_member ms p = true.
Proof. rewrite forallb_forall. auto. Qed.
Section Answers.
  Variables (fp : fpu) (w : world).
  Hypothesis Ha : answers w.
  Lemma fine_time_alarm ms ch mask al node : has_time ms = true -> fine (get_time_alarm w ms ch mask al node).
  Proof.
    intros Hm. unfold get_time_alarm. apply fine_call; [intros h; apply Ha|]. intros m.
    assert (S : forall p v, In p [p2 "alarm" "status"; p2 "alarm" "severity"; p2 "alarm" "message";
        p2 "timeStamp" "secondsPastEpoch"; p2 "timeStamp" "nanoseconds"; p2 "timeStamp" "userTag"] -> fine (set ms node p v)).
    { intros p v I. apply fine_set. exact (has_in _ _ _ Hm I). }
    apply fine_seq; [destruct al; [repeat apply fine_seq; apply S; cbn; tauto|apply fine_ret]|].
    repeat apply fine_seq; apply S; cbn; tauto.
  Qed.
  Lemma fine_properties ms ch node : has_limits ms = true -> fine (get_properties w ms ch node).
  Proof.
    intros Hm. unfold get_properties. cbv zeta. apply fine_call; [intros h; apply Ha|]. intros p.
    apply fine_seq; [destruct (pr_units p); [apply fine_set_if|apply fine_ret]|].
    apply fine_seq; [destruct (pr_enum p); [apply fine_set_if|apply fine_ret]|].
    apply fine_seq; [|apply fine_set_if].
    destruct (has_member ms (p2 "display" "limitLow")) eqn:El; [|apply fine_ret].
    unfold has_limits in Hm. rewrite El in Hm. cbn [implb] in Hm.
    assert (S : forall q v, In q [p2 "display" "limitHigh"; p2 "display" "precision"; p2 "control" "limitLow"; p2 "control" "limitHigh";
       p2 "valueAlarm" "lowAlarmLimit"; p2 "valueAlarm" "lowWarningLimit"; p2 "valueAlarm" "highWarningLimit"; p2 "valueAlarm" "highAlarmLimit"] -> fine (set ms node q v)).
    { intros q v I. apply fine_set. exact (has_in _ _ _ Hm I). }
    apply fine_seq; [|apply fine_seq].
    - destruct (pr_gr p); [|apply fine_ret]. apply fine_seq; [apply fine_set, El|]. apply fine_seq; [apply S; cbn; tauto|].
      destruct (pr_prec p); [apply S; cbn; tauto|apply fine_ret].
    - destruct (pr_ctrl p); [|apply fine_ret]. apply fine_seq; apply S; cbn; tauto.
    - destruct (pr_al p); [|apply fine_ret]. repeat apply fine_seq; apply S; cbn; tauto.
  Qed.
  (** the type of the member for the value *)
  Lemma fine_value t any c ch dst :
    readable c -> match t with MScalar => ch_type c = DEnum -> ch_elems c = 1 | MAny => any = Some (any_code c) | MPlain => True | _ => False end ->
    fine (if ch_elems c =? 1 then get_scalar fp w c ch (value_code t any c) dst else get_array w c ch (value_code t any c) dst).
  Proof.
    intros (Hl & Hn & He) Ht.
    assert (V : value_code t any c = if match t with MScalar => is_enum (ch_type c) | _ => false end then tc_Struct
                 else if is_char (ch_type c) && negb (ch_elems c =? 1) && match t with MAny => false | _ => ch_text c end then tc_String
                 else if negb (ch_elems c =? 1) then tc_arrayOf (from_dbr (ch_type c)) else from_dbr (ch_type c)).
    { destruct t; try contradiction; cbn [value_code]; try (unfold channel_type; rewrite Hl; cbn [andb]; destruct (is_char _ && _ && _); reflexivity).
      subst any. unfold any_code. rewrite andb_false_r. destruct (ch_elems c =? 1), (ch_type c); reflexivity. }
    rewrite V. clear V.
    destruct (ch_elems c =? 1) eqn:E1; cbn [negb]; rewrite ?andb_false_r.
    - unfold get_scalar. apply fine_call; [intros h; apply Ha|]. intros r.
      destruct (ch_type c); try contradiction; destruct t; try contradiction; cbn; apply fine_assign.
    - assert (E2 : (0 <? ch_elems c) = true) by (apply Z.ltb_lt; lia).
      unfold get_array. apply fine_call; [intros h; apply Ha|]. intros r. rewrite E2.
      destruct (ch_type c); try contradiction; destruct t; try contradiction; try (cbn; apply fine_assign);
        try (destruct (ch_text c); cbn; apply fine_assign).
      specialize (Ht eq_refl). rewrite Ht in E1. discriminate.
  Qed.
  Lemma fine_initialize t c ch node : (t = MScalar -> readable c) -> fine (initialize w t c ch node).
  Proof.
    intros H. unfold initialize. destruct t; try apply fine_ret. cbv zeta. destruct (scalar_members c (H eq_refl)) as (_ & _ & F).
    destruct (has_member (node_members MScalar c) (p3 "display" "form" "choices")) eqn:E; [|apply fine_ret].
    unfold has_form in F. rewrite E in F. cbn [implb] in F.
    apply fine_seq; [apply fine_assign|]. destruct (ca_form (w_attr w ch)); [apply fine_set, F|apply fine_ret].
  Qed.
  Definition wired1 (f : cfield) : Prop :=
    match ftype f with
    | MScalar => exists c, cf_chan f = Some c /\ readable c /\ (ch_type c = DEnum -> ch_elems c = 1)
    | MPlain | MMeta => exists c, cf_chan f = Some c /\ readable c
    | MAny => exists c, cf_chan f = Some c /\ readable c /\ cf_any f = Some (any_code c)
    | MConst => fc_const (cf_conf f) <> None
    | MProc | MStructure => True
    end.
  Lemma fine_read_field x f : wired1 f -> fine (read_field fp w x f).
  Proof.
    intros Hw. unfold read_field, ioc_get. unfold wired1 in Hw. destruct (ftype f) eqn:Et; cbv zeta.
    - destruct Hw as (c & -> & R & En). destruct (scalar_members c R) as (M1 & M2 & _).
      apply fine_seq; [destruct (c_property x); [apply fine_properties, M2|apply fine_ret]|].
      apply fine_seq; [destruct (c_value x || c_alarm x); [apply fine_time_alarm, M1|apply fine_ret]|].
      destruct (c_value x); [|apply fine_ret]. apply (fine_value MScalar (cf_any f) c); assumption.
    - destruct Hw as (c & -> & R). apply fine_seq; [apply fine_ret|]. apply fine_seq; [apply fine_ret|].
      destruct (c_value x); [|apply fine_ret]. apply (fine_value MPlain (cf_any f) c); [assumption|exact I].
    - destruct Hw as (c & -> & R & Hany). apply fine_seq; [apply fine_ret|]. apply fine_seq; [apply fine_ret|].
      destruct (c_value x); [|apply fine_ret]. apply (fine_value MAny (cf_any f) c); assumption.
    - destruct Hw as (c & -> & R). apply fine_seq; [apply fine_ret|]. apply fine_seq; [|apply fine_ret].
      destruct (c_value x || c_alarm x); [|apply fine_ret]. apply fine_time_alarm. reflexivity.
    - apply fine_ret.
    - apply fine_ret.
    - destruct (fc_const (cf_conf f)); [apply fine_assign|contradiction].
  Qed.
  Lemma fine_get_field f : wired1 f -> fine (get_field fp w f).
  Proof.
    intros Hw. unfold get_field. apply fine_seq; [|apply fine_read_field, Hw].
    destruct (cf_chan f) as [c|] eqn:Ec; [|apply fine_ret]. apply fine_initialize. intros Et. unfold wired1 in Hw. rewrite Et in Hw.
    destruct Hw as (c' & E & R & _). rewrite Ec in E. inversion E; subst. exact R.
  Qed.
  Lemma fine_get_group g opt : wired (g_fields g) -> fine (get_group fp w g opt).
  Proof.
    intros Hw. unfold get_group. apply fine_seq; [apply fine_assign|]. destruct (atomic_of g opt).
    - apply fine_lock, fine_each. intros f I. pose proof (fine_get_field f (Hw f I)) as F. destruct (ftype f); try exact F; apply fine_ret.
    - apply fine_each. intros f I. pose proof (fine_get_field f (Hw f I)) as F. destruct (cf_chan f) as [c|]; [|apply fine_ret].
      destruct (ftype f); try (apply fine_lock, F); apply fine_ret.
  Qed.
End Answers.

(** ** Completeness *)
Definition gives (ps : list (list str)) (x : op unit) : Prop :=
  post x (fun _ _ a r => r = EOk tt -> forall p, In p ps -> exists v, In (p, v) a).
Lemma gives_nil x : post x (fun _ _ _ _ => True) -> gives [] x.
Proof. intros H. eapply post_imp; [exact H|]. intros h d a r _ _ p []. Qed.
Lemma gives_l ps x y : gives ps x -> post y (fun _ _ _ _ => True) -> gives ps (seq x y).
Proof.
  intros Hx Hy. apply (post_bind x (fun _ => y) _ (fun _ _ _ _ _ => True) _ Hx (fun _ => Hy)).
  - intros h d v r _ N E. destruct r; discriminate.
  - intros h d1 v1 u d2 v2 r H _ _ p I. destruct u. destruct (H eq_refl p I) as (v & Iv). exists v. apply in_or_app. auto.
Qed.
Lemma gives_r ps (x : op unit) y : post x (fun _ _ _ _ => True) -> gives ps y -> gives ps (seq x y).
Proof.
  intros Hx Hy. apply (post_bind x (fun _ => y) _ (fun _ _ _ a r => r = EOk tt -> forall p, In p ps -> exists v, In (p, v) a) _ Hx (fun _ => Hy)).
  - intros h d v r _ N E. destruct r; discriminate.
  - intros h d1 v1 u d2 v2 r _ H E p I. destruct (H E p I) as (v & Iv). exists v. apply in_or_app. auto.
Qed.
Lemma gives_app ps qs x y : gives ps x -> gives qs y -> gives (ps ++ qs) (seq x y).
Proof.
  intros Hx Hy. apply (post_bind x (fun _ => y) _ (fun _ _ _ a r => r = EOk tt -> forall p, In p qs -> exists v, In (p, v) a) _ Hx (fun _ => Hy)).
  - intros h d v r _ N E. destruct r; discriminate.
  - intros h d1 v1 u d2 v2 r H1 H2 E p I. apply in_app_or in I. destruct u. destruct I as [I | I].
    + destruct (H1 eq_refl p I) as (v & Iv). exists v. apply in_or_app. auto.
    + destruct (H2 E p I) as (v & Iv). exists v. apply in_or_app. auto.
Qed.
Lemma gives_sub ps qs x : incl ps qs -> gives qs x -> gives ps x.
Proof. intros I H. eapply post_imp; [exact H|]. cbn. intros h d a r K E p Ip. apply K; auto. Qed.
Lemma gives_set ms node p v : gives [node ++ p] (set ms node p v).
Proof.
  unfold set. destruct (has_member ms p).
  - apply post_assign. intros h _ q [<- | []]. exists v. left. reflexivity.
  - apply post_throw. intros h E. discriminate.
Qed.
Lemma gives_assign p v : gives [p] (assign p v).
Proof. apply post_assign. intros h _ q [<- | []]. exists v. left. reflexivity. Qed.
Lemma gives_call {A} ps a (f : list act -> option A) k : (forall x, gives ps (k x)) -> gives ps (bind (call a f) k).
Proof.
  intros Hk. apply (post_bind _ k (fun _ _ _ _ => True) (fun _ _ _ a r => r = EOk tt -> forall p, In p ps -> exists v, In (p, v) a)).
  - apply post_call. auto.
  - exact Hk.
  - intros h d v r _ N E. destruct r; discriminate.
  - intros h d1 v1 u d2 v2 r _ H E p I. destruct (H E p I) as (v & Iv). exists v. apply in_or_app. auto.
Qed.
Lemma gives_throw ps e : gives ps (throw e).
Proof. apply post_throw. intros h E. discriminate. Qed.
Lemma gives_undefined ps : gives ps undefined.
Proof. apply post_undefined. intros h E. discriminate. Qed.
Lemma calls_any {A} (x : op A) P : calls P x -> post x (fun _ _ _ _ => True).
Proof. intros H. eapply post_imp; [exact H|]. auto. Qed.
Definition times (node : list str) : list (list str) :=
  map (fun p => node ++ p) [p2 "timeStamp" "secondsPastEpoch"; p2 "timeStamp" "nanoseconds"; p2 "timeStamp" "userTag";
               p2 "alarm" "status"; p2 "alarm" "severity"; p2 "alarm" "message"].
Lemma gives_time w ms ch mask node : gives (times node) (get_time_alarm w ms ch mask true node).
Proof.
  unfold get_time_alarm. apply gives_call. intros m.
  eapply gives_sub; [|apply gives_app; [apply gives_app; [apply gives_set|apply gives_app; apply gives_set]|apply gives_app; [apply gives_set|apply gives_app; apply gives_set]]].
  intros p I. cbn in I |- *. tauto.
Qed.
Lemma gives_value fp w t any c ch dst :
  gives [if match t with MScalar => is_enum (ch_type c) | _ => false end then dst ++ [bs "index"] else dst]
    (if ch_elems c =? 1 then get_scalar fp w c ch (value_code t any c) dst else get_array w c ch (value_code t any c) dst) \/
  (exists x, t = MAny /\ any = Some x /\ x = tc_Struct).
Proof.
  destruct (match t with MAny => match any with Some x => x =? tc_Struct | None => false end | _ => false end) eqn:Ea.
  { right. destruct t; try discriminate. destruct any; try discriminate. exists z. apply Z.eqb_eq in Ea. auto. }
  left. set (en := match t with MScalar => is_enum (ch_type c) | _ => false end).
  assert (Sc : (value_code t any c =? tc_Struct) = en).
  { unfold en. destruct t; cbn [value_code]; try (destruct any; [exact Ea|reflexivity]);
      try (unfold channel_type; destruct (true && ch_link c); [reflexivity|]; destruct (ch_type c), (ch_elems c =? 1), (ch_text c); reflexivity).
    destruct (is_enum (ch_type c)); [reflexivity|].
    unfold channel_type; destruct (true && ch_link c); [reflexivity|]; destruct (ch_type c), (ch_elems c =? 1), (ch_text c); reflexivity. }
  destruct (ch_elems c =? 1).
  - unfold get_scalar. apply gives_call. intros r. rewrite Sc. destruct (value_code t any c =? tc_String) eqn:Es.
    + destruct en; [|apply gives_assign]. apply Z.eqb_eq in Es. rewrite Es in Sc. discriminate.
    + destruct en eqn:Een.
      * destruct (is_enum (ch_type c)); [apply gives_assign|apply gives_throw].
      * destruct (_ || _); [apply gives_throw|apply gives_assign].
  - unfold get_array. apply gives_call. intros r. destruct en eqn:Een.
    + apply Z.eqb_eq in Sc. rewrite Sc. unfold en in Een. destruct t; try discriminate. destruct (ch_type c); try discriminate. cbn. apply gives_throw.
    + destruct (_ && _); [apply gives_assign|]. destruct (is_string _); [apply gives_assign|]. destruct (tc_isarray _); [apply gives_assign|apply gives_throw].
Qed.
Lemma post_any {A} (x : op A) : (exists Q, post x Q) -> post x (fun _ _ _ _ => True).
Proof. intros (Q & H). eapply post_imp; [exact H|]. auto. Qed.
Lemma gives_get_field fp w f : cf_any f <> Some tc_Struct ->
  gives (map (fun p => node_of f ++ p) (expected f)) (get_field fp w f).
Proof.
  intros Hany. unfold get_field. apply gives_r.
  { destruct (cf_chan f); [|apply post_ret; auto]. apply (calls_any _ (fun _ _ => True)). apply calls_initialize. }
  unfold read_field, ioc_get, expected. cbv zeta.
  destruct (ftype f) eqn:Et; try (apply post_ret; intros h _ p []);
    try (destruct (cf_chan f) as [c|] eqn:Ec; [|apply gives_undefined]).
  - apply gives_r; [apply (calls_any _ _ (calls_get_properties w (node_members MScalar c) (chan_name f) (node_of f)))|].
    cbn [everything c_value c_alarm c_property orb].
    eapply gives_sub; [|apply gives_app; [apply gives_time|
      destruct (gives_value fp w MScalar (cf_any f) c (chan_name f) (node_of f ++ [bs "value"])) as [G | (z & X & _)]; [exact G|discriminate]]].
    intros p I. destruct (is_enum (ch_type c)); cbn [map In app times] in I |- *; rewrite <- ?app_assoc; cbn in I |- *; tauto.
  - apply gives_r; [apply post_ret; auto|]. apply gives_r; [apply post_ret; auto|]. cbn [everything c_value].
    destruct (gives_value fp w MPlain (cf_any f) c (chan_name f) (node_of f)) as [G | (z & X & _)]; [|discriminate].
    eapply gives_sub; [|exact G]. intros p I. cbn in I |- *. rewrite app_nil_r in I. exact I.
  - apply gives_r; [apply post_ret; auto|]. apply gives_r; [apply post_ret; auto|]. cbn [everything c_value].
    destruct (gives_value fp w MAny (cf_any f) c (chan_name f) (node_of f)) as [G | (z & X & Y & Z)]; [|subst z; contradiction].
    eapply gives_sub; [|exact G]. intros p I. cbn in I |- *. rewrite app_nil_r in I. exact I.
  - apply gives_r; [apply post_ret; auto|]. apply gives_l; [|apply post_ret; auto]. cbn [everything c_value c_alarm orb]. apply gives_time.
  - destruct (fc_const (cf_conf f)); [|apply gives_throw]. eapply gives_sub; [|apply gives_assign].
    intros p I. cbn in I |- *. rewrite app_nil_r in I. exact I.
Qed.
Lemma gives_each {A} (fn : A -> op unit) l x ps :
  In x l -> gives ps (fn x) -> (forall y, post (fn y) (fun _ _ _ _ => True)) -> gives ps (each fn l).
Proof.
  induction l as [|y l IH]; intros I G T; [destruct I|]. cbn [each]. destruct I as [<- | I].
  - apply gives_l; [exact G|]. clear - T. induction l as [|z l IH]; cbn [each]; [apply post_ret; auto|].
    apply (post_bind _ _ (fun _ _ _ _ => True) (fun _ _ _ _ _ => True)); auto.
  - apply gives_r; [apply T|]. apply IH; assumption.
Qed.
Lemma gives_lock ps rs x : gives ps x -> gives ps (with_lock rs x).
Proof. intros H. eapply post_lock; [exact H|]. auto. Qed.
Lemma any_get_field fp w f : post (get_field fp w f) (fun _ _ _ _ => True).
Proof. apply (calls_any _ (fun _ _ => True)). apply calls_get_field. auto. Qed.
Lemma get_complete fp w g opt f :
  In f (g_fields g) -> cf_any f <> Some tc_Struct -> (atomic_of g opt = true \/ cf_chan f <> None) ->
  gives (map (fun p => node_of f ++ p) (expected f)) (get_group fp w g opt).
Proof.
  intros I Hany Hc. unfold get_group. apply gives_r; [apply post_assign; auto|]. destruct (atomic_of g opt).
  - apply gives_lock. eapply gives_each; [exact I| |].
    + pose proof (gives_get_field fp w f Hany) as G. unfold expected in *. destruct (ftype f); try exact G; apply post_ret; intros h _ p [].
    + intros y. pose proof (any_get_field fp w y). destruct (ftype y); try assumption; apply post_ret; auto.
  - destruct Hc as [Hc | Hc]; [discriminate|]. eapply gives_each; [exact I| |].
    + pose proof (gives_get_field fp w f Hany) as G. destruct (cf_chan f) as [c|] eqn:Ec; [|contradiction].
      unfold expected in *. destruct (ftype f); try (apply gives_lock; exact G); apply post_ret; intros h _ p [].
    + intros y. pose proof (any_get_field fp w y) as P. destruct (cf_chan y) as [c|]; [|apply post_ret; auto].
      destruct (ftype y); try (eapply post_lock; [exact P|auto]); apply post_ret; auto.
Qed.
