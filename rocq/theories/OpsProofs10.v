(** The content of replies. *)
From Coq Require Import String ZArith List Bool Lia Arith.
From Verif Require Import Base BaseProofs WireModel TypeModel TextModel ValueModel MarkModel CopyModel NtModel GroupModel OpsModel OpsSpec
  OpsProofs OpsProofs2 OpsProofs3 OpsProofs4 OpsProofs5 OpsProofs6 OpsProofs7.
Import ListNotations.
Local Open Scope Z_scope.

(** what is assigned if all goes well *)
Definition added (x : op unit) (Q : list assignment -> Prop) : Prop := post x (fun _ _ a r => r = EOk tt -> Q a).
Lemma added_imp x (Q Q' : list assignment -> Prop) : added x Q -> (forall a, Q a -> Q' a) -> added x Q'.
Proof. intros H I. eapply post_imp; [exact H|]. cbn. auto. Qed.
Lemma added_ret (Q : list assignment -> Prop) : Q [] -> added (ret tt) Q.
Proof. intros H. apply post_ret. auto. Qed.
Lemma added_assign p v (Q : list assignment -> Prop) : Q [(p, v)] -> added (assign p v) Q.
Proof. intros H. apply post_assign. auto. Qed.
Lemma added_throw e Q : added (throw e) Q.
Proof. apply post_throw. intros h E. discriminate. Qed.
Lemma added_undefined Q : added undefined Q.
Proof. apply post_undefined. intros h E. discriminate. Qed.
Lemma added_seq x y (P R Q : list assignment -> Prop) : added x P -> added y R -> (forall a b, P a -> R b -> Q (a ++ b)) -> added (seq x y) Q.
Proof.
  intros Hx Hy H. apply (post_bind x (fun _ => y) _ (fun _ _ _ a r => r = EOk tt -> R a) _ Hx (fun _ => Hy)).
  - intros h d v r _ N E. destruct r; discriminate.
  - intros h d1 v1 u d2 v2 r H1 H2 E. destruct u. apply H; auto.
Qed.
Lemma added_call {A} a (o : option A) (k : A -> op unit) (Q : list assignment -> Prop) :
  (forall x, o = Some x -> added (k x) Q) -> added (bind (call a (fun _ => o)) k) Q.
Proof.
  intros H s s' r E. unfold bind, call in E. destruct o as [x|].
  - destruct (H x eq_refl _ _ _ E) as (d & v & E1 & E2 & E3). cbn [s_acts s_val] in *.
    exists (a :: d), v. split; [rewrite E1, <- app_assoc; reflexivity|]. split; [exact E2|exact E3].
  - inversion E; subst. exists [a], []. cbn [s_acts s_val]. rewrite app_nil_r. split; [reflexivity|split; [reflexivity|discriminate]].
Qed.
Lemma added_set ms node p v (Q : list assignment -> Prop) : Q [(node ++ p, v)] -> added (set ms node p v) Q.
Proof. intros H. unfold set. destruct (has_member ms p); [apply added_assign, H|apply added_throw]. Qed.
(** paths below a node *)
Definition below (node : list str) (ps : list (list str)) (a : list assignment) : Prop :=
  forall p v, In (p, v) a -> exists q, In q ps /\ p = node ++ q.
Lemma below_nil node ps : below node ps [].
Proof. intros p v []. Qed.
Lemma below_app node ps a b : below node ps a -> below node ps b -> below node ps (a ++ b).
Proof. intros Ha Hb p v I. apply in_app_or in I. destruct I as [I | I]; [eapply Ha, I|eapply Hb, I]. Qed.
Lemma below_one node ps p v : In p ps -> below node ps [(node ++ p, v)].
Proof. intros H q x [E | []]. inversion E; subst. exists p. auto. Qed.
Lemma below_seq x y node ps : added x (below node ps) -> added y (below node ps) -> added (seq x y) (below node ps).
Proof. intros Hx Hy. eapply added_seq; [exact Hx|exact Hy|]. intros. apply below_app; assumption. Qed.
Lemma below_set ms node p v ps : In p ps -> added (set ms node p v) (below node ps).
Proof. intros H. apply added_set, below_one, H. Qed.
Lemma below_set_if ms node p v ps : In p ps -> added (set_if ms node p v) (below node ps).
Proof. intros H. unfold set_if. destruct (has_member ms p); [apply added_assign, below_one, H|apply added_ret, below_nil]. Qed.

Definition prop_paths : list (list str) :=
  [p3 "display" "form" "choices"; p3 "display" "form" "index"; p2 "display" "units"; p2 "value" "choices"; p2 "display" "limitLow"; p2 "display" "limitHigh"; p2 "display" "precision";
   p2 "control" "limitLow"; p2 "control" "limitHigh"; p2 "valueAlarm" "lowAlarmLimit"; p2 "valueAlarm" "lowWarningLimit";
   p2 "valueAlarm" "highWarningLimit"; p2 "valueAlarm" "highAlarmLimit"; p2 "display" "description"].
Lemma below_initialize w t c ch node : added (initialize w t c ch node) (below node prop_paths).
Proof.
  unfold initialize. destruct t; try (apply added_ret, below_nil). cbv zeta.
  destruct (has_member _ _); [|apply added_ret, below_nil]. apply below_seq; [apply added_assign, below_one; cbn; tauto|].
  destruct (ca_form _); [apply below_set; cbn; tauto|apply added_ret, below_nil].
Qed.
Section Moment.
  Variables (fp : fpu) (w : world) (m : moment).
  Let W := frozen w m.
  Lemma below_properties ms ch node : added (get_properties W ms ch node) (below node prop_paths).
  Proof.
    unfold get_properties. cbv zeta. unfold W. cbn [frozen w_props]. apply added_call. intros p _.
    apply below_seq; [destruct (pr_units p); [apply below_set_if; cbn; tauto|apply added_ret, below_nil]|].
    apply below_seq; [destruct (pr_enum p); [apply below_set_if; cbn; tauto|apply added_ret, below_nil]|].
    apply below_seq; [|apply below_set_if; cbn; tauto].
    destruct (has_member _ _); [|apply added_ret, below_nil].
    apply below_seq; [|apply below_seq].
    - destruct (pr_gr p); [|apply added_ret, below_nil]. repeat (apply below_seq; [apply below_set; cbn; tauto|]).
      destruct (pr_prec p); [apply below_set; cbn; tauto|apply added_ret, below_nil].
    - destruct (pr_ctrl p); [|apply added_ret, below_nil]. apply below_seq; apply below_set; cbn; tauto.
    - destruct (pr_al p); [|apply added_ret, below_nil]. repeat (apply below_seq; [apply below_set; cbn; tauto|]). apply below_set; cbn; tauto.
  Qed.
  (** alarm and time *)
  Definition alarm_part (x : meta) (node : list str) : list assignment :=
    [(node ++ p2 "alarm" "status", PUInt (status_of (m_status x))); (node ++ p2 "alarm" "severity", PUInt (m_severity x));
     (node ++ p2 "alarm" "message", PStr (alarm_message w x))].
  Definition time_part (x : meta) (mask : Z) (node : list str) : list assignment :=
    [(node ++ p2 "timeStamp" "secondsPastEpoch", PUInt (u_cast 4 (m_sec x + 631152000)));
     (node ++ p2 "timeStamp" "nanoseconds", PUInt (Z.land (m_nsec x) (Z.lxor mask 4294967295)));
     (node ++ p2 "timeStamp" "userTag", PUInt (if mask =? 0 then m_utag x else Z.land (m_nsec x) mask))].
  Lemma status_same s : alarm_status s = status_of s.
  Proof.
    unfold alarm_status, status_of. cbn [existsb].
    destruct (s =? 0) eqn:E0; [reflexivity|].
    repeat match goal with |- context [?a =? ?b] => destruct (Z.eqb_spec a b); [subst; try reflexivity|] end; cbn [orb andb];
    repeat match goal with |- context [?a <=? ?b] => destruct (Z.leb_spec a b) end; cbn [orb andb]; try reflexivity; try lia.
  Qed.
  Lemma added_seq_eq x y a b : added x (fun l => l = a) -> added y (fun l => l = b) -> added (seq x y) (fun l => l = a ++ b).
  Proof. intros Hx Hy. eapply added_seq; [exact Hx|exact Hy|]. intros ? ? -> ->. reflexivity. Qed.
  Lemma added_time ms ch mask al node :
    added (get_time_alarm W ms ch mask al node)
      (fun a => exists x, mo_meta m ch = Some x /\ a = (if al then alarm_part x node else []) ++ time_part x mask node).
  Proof.
    unfold get_time_alarm, W. cbn [frozen w_meta]. apply added_call. intros x Ex.
    eapply added_imp; [|intros a Ha; exists x; split; [exact Ex|exact Ha]].
    apply added_seq_eq.
    - destruct al; [|apply added_ret; reflexivity]. unfold alarm_part. rewrite <- status_same.
      eapply added_imp; [apply added_seq_eq; [apply added_set; reflexivity|apply added_seq_eq; apply added_set; reflexivity]|].
      intros a ->. reflexivity.
    - eapply added_imp; [apply added_seq_eq; [apply added_set; reflexivity|apply added_seq_eq; apply added_set; reflexivity]|].
      intros a ->. reflexivity.
  Qed.
  (** the value *)
  Definition shown_value (c : chan) (code : Z) (r : raw) : src :=
    if ch_elems c =? 1 then
      if code =? tc_String then PStr (c_str (firstn 39 (match r with RTexts (t :: _) => t | _ => [] end)))
      else if code =? tc_Struct then PUInt (match r with RNums (z :: _) => z | _ => 0 end)
      else number fp (ch_type c) (match r with RNums (z :: _) => z | _ => 0 end)
    else if is_char (ch_type c) && (code =? tc_String) && (0 <? ch_elems c) then
      PStr (c_str (map (u_cast 1) (firstn (Z.to_nat (ch_elems c) - 1) (pad (Z.to_nat (ch_elems c)) (match r with RNums l => l | _ => [] end)))))
    else if is_string (ch_type c) then PArr (AStr (map (fun t => c_str (firstn 40 t)) (match r with RTexts l => l | _ => [] end)))
    else PArr (APod code (match r with RNums l => l | _ => [] end)).
  Lemma added_value c ch code dst :
    added (if ch_elems c =? 1 then get_scalar fp W c ch code dst else get_array W c ch code dst)
      (fun a => exists r, mo_value m ch = Some r /\
         a = [((if (ch_elems c =? 1) && (code =? tc_Struct) && negb (code =? tc_String) then dst ++ [bs "index"] else dst), shown_value c code r)]).
  Proof.
    unfold shown_value. destruct (ch_elems c =? 1); cbn [andb].
    - unfold get_scalar, W. cbn [frozen w_value]. apply added_call. intros r Er.
      eapply added_imp; [|intros a Ha; exists r; split; [exact Er|exact Ha]]. destruct (code =? tc_String); cbn [negb].
      + rewrite andb_false_r. apply added_assign. reflexivity.
      + rewrite andb_true_r. destruct (code =? tc_Struct).
        * destruct (is_enum (ch_type c)); [apply added_assign; reflexivity|apply added_throw].
        * destruct (_ || _); [apply added_throw|apply added_assign; reflexivity].
    - unfold get_array, W. cbn [frozen w_value]. apply added_call. intros r Er.
      eapply added_imp; [|intros a Ha; exists r; split; [exact Er|exact Ha]].
      destruct (_ && _); [apply added_assign; reflexivity|]. destruct (is_string _); [apply added_assign; reflexivity|].
      destruct (tc_isarray code); [apply added_assign; reflexivity|apply added_throw].
  Qed.
  (** all of a field *)
  Definition whole (f : cfield) (c : chan) (a : list assignment) : Prop :=
    match ftype f with
    | MScalar => exists a0 x r, below (node_of f) prop_paths a0 /\ mo_meta m (chan_name f) = Some x /\ mo_value m (chan_name f) = Some r /\
                   a = a0 ++ alarm_part x (node_of f) ++ time_part x (mask_of w f) (node_of f) ++ [(value_member f c, shown_value c (value_code MScalar (cf_any f) c) r)]
    | MMeta => exists x, mo_meta m (chan_name f) = Some x /\ a = alarm_part x (node_of f) ++ time_part x (mask_of w f) (node_of f)
    | MPlain | MAny => exists r, mo_value m (chan_name f) = Some r /\ a = [(value_member f c, shown_value c (value_code (ftype f) (cf_any f) c) r)]
    | _ => True
    end.
  Lemma scalar_struct t any c : match t with MScalar | MPlain => True | MAny => any = Some (any_code c) | _ => False end ->
    (value_code t any c =? tc_Struct) = match t with MScalar => is_enum (ch_type c) | _ => false end /\
    (value_code t any c =? tc_Struct) && negb (value_code t any c =? tc_String) = (value_code t any c =? tc_Struct).
  Proof.
    intros Ht. split.
    - destruct t; try contradiction; cbn [value_code]; try subst any; try (destruct (is_enum (ch_type c)); [reflexivity|]);
      try (unfold any_code; destruct (ch_elems c =? 1), (ch_type c); reflexivity);
      (unfold channel_type; destruct (true && ch_link c); [reflexivity|]; destruct (ch_type c), (ch_elems c =? 1), (ch_text c); reflexivity).
    - destruct (Z.eqb_spec (value_code t any c) tc_Struct) as [E | E]; [rewrite E|]; reflexivity.
  Qed.
  Lemma added_field f c : cf_chan f = Some c ->
    match ftype f with MScalar => ch_type c = DEnum -> ch_elems c = 1 | MAny => cf_any f = Some (any_code c) | _ => True end ->
    added (get_field fp W f) (whole f c).
  Proof.
    intros Ec Ht. unfold get_field. rewrite Ec. unfold whole, read_field, ioc_get. rewrite Ec. cbv zeta.
    destruct (ftype f) eqn:Et; cbn [everything c_value c_alarm c_property orb].
    - destruct (scalar_struct MScalar (cf_any f) c I) as (Sa & Sb).
      set (Q3 := fun a => exists x r, mo_meta m (chan_name f) = Some x /\ mo_value m (chan_name f) = Some r /\
        a = alarm_part x (node_of f) ++ time_part x (mask_of w f) (node_of f) ++ [(value_member f c, shown_value c (value_code MScalar (cf_any f) c) r)]).
      apply (added_seq _ _ (below (node_of f) prop_paths) (fun a => exists a0 a1, below (node_of f) prop_paths a0 /\ Q3 a1 /\ a = a0 ++ a1)).
      + apply below_initialize.
      + eapply added_seq; [apply below_properties| |intros a b P R; exists a, b; split; [exact P|split; [exact R|reflexivity]]].
        eapply added_seq; [apply added_time|apply added_value|].
        intros a b (x & Ex & ->) (r & Er & ->). exists x, r. split; [exact Ex|split; [exact Er|]]. rewrite <- app_assoc. f_equal.
        change (mask_of (frozen w m) f) with (mask_of w f). do 2 f_equal. f_equal. rewrite <- andb_assoc, Sb, Sa. unfold value_member. rewrite Et.
        destruct (is_enum (ch_type c)) eqn:Ee.
        * assert (ch_type c = DEnum) as E by (destruct (ch_type c); try discriminate; reflexivity). rewrite (Ht E). cbn [andb Z.eqb Pos.eqb].
          rewrite <- app_assoc. reflexivity.
        * rewrite andb_false_r. reflexivity.
      + intros a b P (a0 & a1 & P0 & (x & r & Ex & Er & ->) & ->). exists (a ++ a0), x, r.
        split; [apply below_app; assumption|split; [exact Ex|split; [exact Er|]]]. rewrite <- app_assoc. reflexivity.
    - destruct (scalar_struct MPlain (cf_any f) c I) as (Sa & Sb).
      eapply added_seq; [apply (added_ret (fun a => a = [])); reflexivity| |intros a b -> R; exact R].
      eapply added_seq; [apply (added_ret (fun a => a = [])); reflexivity| |intros a b -> R; exact R].
      eapply added_seq; [apply (added_ret (fun a => a = [])); reflexivity| |intros a b -> R; exact R].
      eapply added_imp; [apply added_value|]. intros a (r & Er & ->). exists r. split; [exact Er|]. cbn [app]. f_equal. f_equal.
      rewrite <- andb_assoc, Sb, Sa, andb_false_r. unfold value_member. rewrite Et. reflexivity.
    - destruct (scalar_struct MAny (cf_any f) c Ht) as (Sa & Sb).
      eapply added_seq; [apply (added_ret (fun a => a = [])); reflexivity| |intros a b -> R; exact R].
      eapply added_seq; [apply (added_ret (fun a => a = [])); reflexivity| |intros a b -> R; exact R].
      eapply added_seq; [apply (added_ret (fun a => a = [])); reflexivity| |intros a b -> R; exact R].
      eapply added_imp; [apply added_value|]. intros a (r & Er & ->). exists r. split; [exact Er|]. cbn [app]. f_equal. f_equal.
      rewrite <- andb_assoc, Sb, Sa, andb_false_r. unfold value_member. rewrite Et. reflexivity.
    - eapply added_seq; [apply (added_ret (fun a => a = [])); reflexivity| |intros a b -> R; exact R].
      eapply added_seq; [apply (added_ret (fun a => a = [])); reflexivity| |intros a b -> R; exact R].
      eapply added_seq; [apply added_time|apply (added_ret (fun a => a = [])); reflexivity|].
      intros a b (x & Ex & ->) ->. exists x. split; [exact Ex|]. rewrite app_nil_r. reflexivity.
    - apply (added_seq _ _ (fun _ => True) (fun _ => True)); [apply added_ret; exact I|apply added_ret; exact I|intros; exact I].
    - apply (added_seq _ _ (fun _ => True) (fun _ => True)); [apply added_ret; exact I|apply added_ret; exact I|intros; exact I].
    - apply (added_seq _ _ (fun _ => True) (fun _ => True)); [apply added_ret; exact I| |intros; exact I].
      destruct (fc_const (cf_conf f)); [apply added_assign; exact I|apply added_throw].
  Qed.
End Moment.
