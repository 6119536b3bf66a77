(** C89-C92: MONITOR of groups, single PVs, what members show, and credentials. *)
From Coq Require Import String ZArith List Bool Lia Arith.
From Verif Require Import Base BaseProofs WireModel TypeModel TextModel ValueModel MarkModel CopyModel CopyProps NtModel GroupModel OpsModel OpsSpec
  OpsProofs OpsProofs2 OpsProofs3 OpsProofs4 OpsProofs5 OpsProofs6 OpsProofs7 OpsProofs8 OpsProofs9 OpsProofs10 OpsProofs11 OpsProofs12 OpsProofs13 OpsProps.
From Verif Require GroupSpec GroupProofs GroupProps.
Import ListNotations.
Local Open Scope Z_scope.

(** ** C89: MONITOR of a group *)
Definition sub_part (w : world) (f : cfield) : list assignment :=
  match ftype f with
  | MConst => match fc_const (cf_conf f) with Some v => [(node_of f, v)] | None => [] end
  | MScalar => match cf_chan f with Some c => form_part w f c | None => [] end
  | _ => []
  end.
Lemma exactly_init w f c : exactly (initialize w (ftype f) c (chan_name f) (node_of f)) (form_part w f c).
Proof.
  unfold initialize, form_part. cbv zeta. destruct (ftype f); try apply exactly_ret.
  destruct (has_member _ _); [|apply exactly_ret]. unfold form_list.
  change (at_node (node_of f) (?x :: ?l)) with ([(node_of f ++ fst x, snd x)] ++ at_node (node_of f) l).
  apply exactly_seq; [apply added_assign; reflexivity|].
  destruct (ca_form (w_attr w (chan_name f))) as [i|]; [|apply exactly_ret]. apply added_set. reflexivity.
Qed.
Lemma exactly_sub w f : exactly (subscribe_field w f) (sub_part w f).
Proof.
  unfold subscribe_field, sub_part. pose proof (fun c => exactly_init w f c) as H. destruct (ftype f) eqn:Et.
  all: try (destruct (cf_chan f); [|apply exactly_ret]; specialize (H c); unfold form_part in H; rewrite Et in H; exact H).
  - destruct (cf_chan f); [|apply exactly_ret]. exact (H c).
  - destruct (fc_const (cf_conf f)); [apply added_assign; reflexivity|]. intros s s' r E. unfold throw in E. inversion E; subst.
    exists [], []. rewrite !app_nil_r. split; [reflexivity|split; [reflexivity|discriminate]].
Qed.
Lemma exactly_each {A} (f : A -> op unit) (g : A -> list assignment) l : (forall x, exactly (f x) (g x)) -> exactly (each f l) (concat (map g l)).
Proof. intros H. induction l as [|x l IH]; cbn [each map concat]; [apply exactly_ret|]. apply exactly_seq; [apply H|exact IH]. Qed.
Lemma fine_sub w l : wired l -> fine (each (subscribe_field w) l).
Proof.
  induction l as [|f l IH]; intros Hw; cbn [each]; [apply fine_ret|]. apply fine_seq.
  - specialize (Hw f (or_introl eq_refl)). unfold subscribe_field. destruct (ftype f) eqn:Et;
      try (destruct (cf_chan f); [apply fine_initialize; discriminate|apply fine_ret]).
    + destruct Hw as (c & -> & R & _). apply fine_initialize. auto.
    + destruct (fc_const (cf_conf f)); [apply fine_assign|contradiction].
  - apply IH. intros g I. apply Hw. right. exact I.
Qed.
Lemma subscribe_ok w g q : wired (g_fields g) -> exists s, subscribe w g q = EOk s /\
  gs_cur s = (p3 "record" "_options" "queueSize", PUInt q) :: (p3 "record" "_options" "atomic", PBool true) :: concat (map (sub_part w) (g_fields g)).
Proof.
  intros Hw. unfold subscribe, seq, bind, assign. cbn [s_acts s_val].
  destruct (each _ _ _) as (s & r) eqn:E.
  destruct (fine_sub w _ Hw _ _ _ E) as (_ & _ & _ & _ & ->).
  destruct (exactly_each _ _ (g_fields g) (exactly_sub w) _ _ _ E) as (d & a & _ & Ev & H). specialize (H eq_refl). subst a.
  eexists. split; [reflexivity|]. cbn [gs_cur]. rewrite Ev. reflexivity.
Qed.
(** The first update comes only after the first event of each channel, and its properties. *)
Theorem C89_first : forall fp w g q l h s h' s' us,
  Forall (has_event g) l -> subscribe w g q = EOk s -> sub_run fp w g l h s = (h', EOk (s', us)) -> us <> [] -> all_first g l.
Proof.
  intros fp w g q l h s h' s' us F Es E Hu. destruct (subscribe_flags _ _ _ _ Es) as (P & V & Q).
  destruct (run_first fp w g l F _ _ _ _ _ E P Hu) as (H1 & H2). intros i f Ei Ec.
  assert (N : no_chan f = false) by (unfold no_chan; destruct (cf_chan f); [reflexivity|contradiction]). split.
  - apply H1. rewrite V, nth_error_map, Ei. cbn. rewrite N. reflexivity.
  - intros Ht. apply H2. rewrite Q, nth_error_map, Ei. cbn. rewrite N. destruct Ht as [Ht | Ht]; unfold has_props; rewrite Ht; reflexivity.
Qed.
(** It comes with the last of these, and after that every event is posted at once: nothing
    is kept, nothing lost and nothing added.  The client sees the constants and then, for
    each event in order, what it shows at one moment of the history. *)
Theorem C89_all : forall fp w g q rec hist l h,
  answers w -> wired (g_fields g) -> triggers_exist g -> (forall f, In f (g_fields g) -> ftype f = MConst -> cf_chan f = None) ->
  seen w hist -> locks_work rec hist -> places rec (g_fields g) -> Forall (has_event g) l -> l <> [] -> all_first g l ->
  exists s d s' us start ps, subscribe w g q = EOk s /\ sub_run fp w g l h s = (h ++ d, EOk (s', us)) /\
    us <> [] /\ concat us = start ++ concat ps /\
    (forall f v, In f (g_fields g) -> ftype f = MConst -> fc_const (cf_conf f) = Some v -> In (node_of f, v) start) /\
    Forall2 (fun e p => exists pre post, d = pre ++ post /\ event_shows fp w g (hist (h ++ pre)) e p) l ps.
Proof.
  intros fp w g q rec hist l h Ha Hw Ht Hc Hs Hl Hp F Nl Al. destruct (subscribe_ok w g q Hw) as (s & Es & Ec).
  destruct (run_shown fp w g rec hist l Ha Hw Ht Hs Hl Hp F h s) as (d & s' & us & ps & Er & C & F2).
  destruct (run_ready fp w g q l h s _ s' us Ha Hw Ht F Nl Al Hc Es Er) as (Nu & Cu).
  exists s, d, s', us, (gs_cur s), ps. rewrite Cu, app_nil_r in C. split; [exact Es|split; [exact Er|split; [exact Nu|split; [exact C|split; [|exact F2]]]]].
  intros f v I Et Ev. rewrite Ec. right. right. apply in_concat. exists (sub_part w f). split; [apply in_map, I|]. unfold sub_part. rewrite Et, Ev. left. reflexivity.
Qed.
(** What an event of a value shows: the members of the fields it triggers and no others. *)
Theorem C89_event : forall fp w g m i x f a,
  wired (g_fields g) -> event_shows fp w g m (SValue i x) a -> nth_error (g_fields g) i = Some f ->
  exists ps, a = concat ps /\ Forall2 (fun j p => exists t, nth_error (g_fields g) j = Some t /\
    forall c, carries (ftype t) \/ ftype t = MMeta -> cf_chan t = Some c -> event_members fp w m t c (if (j =? i)%nat then x else value_alarm) (mask_of w t) p)
    (cf_trig f) ps.
Proof.
  intros fp w g m i x f a Hw (f' & ps & Ef & -> & F) Ei. rewrite Ei in Ef. inversion Ef; subst. exists ps. split; [reflexivity|].
  clear Ef Ei. induction F as [|j p l ps (t & Et & Hp) F IH]; constructor; [|exact IH]. exists t. split; [exact Et|]. intros c Ht Ec.
  assert (M : mapped t c /\ readable c /\ ftype t <> MConst).
  { specialize (Hw t (nth_error_In _ _ Et)). unfold mapped. destruct (ftype t) eqn:Ty; cbn in Ht; try (destruct Ht as [[] | Ht]; discriminate).
    all: destruct Hw as (c' & Ec' & R); rewrite Ec in Ec'; inversion Ec'; subst c'; try destruct R as (R & R2);
      (split; [split; [exact Ec|auto]|split; [assumption || (split; assumption)|discriminate]]). }
  destruct M as (M1 & M2 & M3). apply part_members; assumption.
Qed.
(** A field which no field triggers is not in the first update. *)
Theorem C89_first_refuted : exists g s h' s' us, o_group true [("a", o_field "A" "a" MPlain 0); ("b", o_field "B" "" MPlain 1)]%string = JOk g /\
  subscribe (o_world (fun _ => true)) g 4 = EOk s /\ all_first g [SValue 0 everything; SValue 1 everything] /\
  sub_run no_fpu (o_world (fun _ => true)) g [SValue 0 everything; SValue 1 everything] [] s = (h', EOk (s', us)) /\
  concat us = [(p3 "record" "_options" "queueSize", PUInt 4); (p3 "record" "_options" "atomic", PBool true); ([bs "a"], PReal 7)].
Proof.
  eexists. eexists. eexists. eexists. eexists. split; [vm_compute; reflexivity|]. split; [vm_compute; reflexivity|]. split; [|split; vm_compute; reflexivity].
  intros i f Ei _. destruct i as [|[|i]]; cbn in Ei; [| |destruct i; discriminate]; inversion Ei; subst;
    (split; [exists everything; cbn; tauto|intros [H | H]; discriminate]).
Qed.
Example C89_example : exists g, o_group true [("a", o_field "A" "a,b" MScalar 0); ("b", o_field "B" "b" MPlain 1); ("c", o_const 1)]%string = JOk g /\
  wired (g_fields g) /\ triggers_exist g /\ (forall f, In f (g_fields g) -> ftype f = MConst -> cf_chan f = None) /\ places o_rec (g_fields g) /\
  Forall (has_event g) [SStart; SProps 1; SValue 2 everything; SValue 1 everything; SValue 2 value_alarm] /\
  all_first g [SStart; SProps 1; SValue 2 everything; SValue 1 everything; SValue 2 value_alarm].
Proof.
  eexists. split; [vm_compute; reflexivity|]. split; [|split; [|split; [|split; [|split]]]].
  - intros f I. destruct I as [<- | [<- | [<- | []]]]; cbv -[readable o_chan]; [discriminate| |];
      (eexists; split; [reflexivity|]); unfold readable; cbn; repeat split; try discriminate; lia.
  - intros f j I J. cbn in I. destruct I as [<- | [<- | [<- | []]]]; cbn in J |- *; intuition (subst; lia).
  - intros f I. destruct I as [<- | [<- | [<- | []]]]; cbn; congruence.
  - intros f c I E. destruct I as [<- | [<- | [<- | []]]]; cbn in E; try discriminate; inversion E; subst; vm_compute; reflexivity.
  - repeat (apply Forall_cons || apply Forall_nil); cbn [has_event]; try exact Logic.I;
      (eexists; split; [cbn; reflexivity|]; cbn; split; [discriminate|]); cbv; first [discriminate | left; reflexivity].
  - intros i f Ei Hc. destruct i as [|[|[|i]]]; cbn in Ei; [| | |destruct i; discriminate]; inversion Ei; subst; cbn in Hc; [contradiction| |];
      (split; [eexists; cbn [In]; eauto 8|]); cbv -[In]; intros H; [right; left; reflexivity|destruct H; discriminate].
Qed.

(** ** C90: single PVs *)
(** A PUT does nothing unless it is permitted: the client may write, the field may be
    modified and the record is not disabled. *)
Theorem C90_permitted : forall fp w c ch cr o notify v s s' r,
  honest notify -> single_put fp w c ch cr o notify v s = (s', r) ->
  ~ allowed w (s_acts s) ch cr \/ ca_attribute (w_attr w ch) = true \/ (w_disp w (s_acts s) (ch_record c) = true /\ ca_disp (w_attr w ch) = false) ->
  s_acts s' = s_acts s /\ r <> EOk tt.
Proof.
  intros fp w c ch cr o notify v s s' r Hn E D. destruct (single_put_spec fp w c ch cr o notify v s s' r Hn E) as (d & a & E1 & _ & [_ _ N _ _]).
  assert (X : ~ (d <> [] \/ r = EOk tt)).
  { intros H. destruct (N H) as (A1 & A2 & A3). destruct D as [D | [D | (D1 & D2)]]; [exact (D A1)|congruence|]. specialize (A3 D1). congruence. }
  split; [|intros ->; apply X; right; reflexivity]. destruct d as [|y d]; [rewrite app_nil_r in E1; exact E1|]. exfalso. apply X. left. discriminate.
Qed.
(** It writes only the channel of the PV and only what was sent; if the client does not ask
    to wait, under the lock of the record; and if it succeeds it did write (an array which
    is not given excepted). *)
Theorem C90_writes : forall fp w c ch cr o notify v s s' r,
  honest notify -> single_put fp w c ch cr o notify v s = (s', r) ->
  exists d, s_acts s' = s_acts s ++ d /\
    (forall ch' x, In (AWrite ch' x) d -> ch' = ch /\ wrote c (content v (pv_field c ch)) x) /\
    (single_wait o = false -> ca_link (w_attr w ch) = false ->
       d = [] \/ exists m, d = ALock [ch_record c] :: m ++ [AUnlock [ch_record c]] /\ forall rs, ~ In (ALock rs) m /\ ~ In (AUnlock rs) m) /\
    (single_wait o = false -> r = EOk tt -> (exists x, In (AWrite ch x) d) \/ no_array (content v (pv_field c ch))).
Proof.
  intros fp w c ch cr o notify v s s' r Hn E. destruct (single_put_spec fp w c ch cr o notify v s s' r Hn E) as (d & a & E1 & _ & [_ W _ L K]).
  exists d. split; [exact E1|split; [exact W|split; [|exact K]]]. intros H1 H2. destruct (L H1 H2) as [-> | (m & -> & F)]; [left; reflexivity|right].
  exists m. split; [reflexivity|]. intros rs. rewrite Forall_forall in F. split; intros I; exact (F _ I).
Qed.
(** A GET changes nothing, reads under the lock, and succeeds when the database answers;
    what it shows is of one moment. *)
Theorem C90_get : forall fp w c ch rec hist s,
  answers w -> readable c -> (ch_type c = DEnum -> ch_elems c = 1) -> seen w hist -> locks_work rec hist -> ch_record c = rec ch ->
  exists s' d pre post form a, single_get fp w c ch s = (s', EOk tt) /\ s_acts s' = s_acts s ++ d /\ d = pre ++ post /\ s_val s' = s_val s ++ form ++ a /\
    (forall x, In x d -> ~ changes x) /\ during (s_acts s) d (fun h x => forall y, x = ARead y -> y = ch /\ held h (ch_record c)) /\
    form = (if has_member (node_members MScalar c) (p3 "display" "form" "choices") then form_list (ca_form (w_attr w ch)) else []) /\
    event_members fp w (hist (s_acts s ++ pre)) (pv_field c ch) c everything (ca_mask (w_attr w ch)) a.
Proof.
  intros fp w c ch rec hist s Ha Hr He Hs Hl Hp. destruct (single_get fp w c ch s) as (s' & r) eqn:E.
  destruct (single_get_ok fp w c ch Ha Hr He _ _ _ E) as (_ & _ & _ & _ & ->).
  destruct (calls_single_get fp w c ch _ _ _ E) as (d' & v & Ed' & _ & D).
  destruct (single_get_shows fp w c ch rec hist s s' Hs Hl Hp E) as (d & a & pre & po & Ed & Ev & -> & Sh).
  rewrite Ed in Ed'. apply app_inv_head in Ed'. subst d'.
  assert (Hm : mapped (pv_field c ch) c) by (split; [reflexivity|exact He]).
  destruct (shows_members fp w _ (pv_field c ch) c a Hm Hr ltac:(discriminate) Sh) as (a0 & a1 & -> & F & M).
  exists s', (pre ++ po), pre, po, a0, a1. split; [reflexivity|split; [exact Ed|split; [reflexivity|split; [exact Ev|split; [|split; [|split; [|exact M]]]]]]].
  - intros x I. apply in_split in I. destruct I as (l1 & l2 & E2). exact (proj1 (D l1 x l2 E2)).
  - intros l1 x l2 E2. exact (proj2 (D l1 x l2 E2)).
  - rewrite F. unfold form_part. change (ftype (pv_field c ch)) with MScalar. cbv iota. destruct (has_member _ _); [|reflexivity].
    change (chan_name (pv_field c ch)) with ch. unfold at_node. etransitivity; [|apply map_id]. apply map_ext. intros (q & y). reflexivity.
Qed.
(** The first update of a MONITOR comes exactly when there was an event of the value and one
    of the properties; nothing is lost, and each event shows one moment. *)
Theorem C90_monitor : forall fp w c ch rec hist l h,
  answers w -> readable c -> (ch_type c = DEnum -> ch_elems c = 1) -> seen w hist -> locks_work rec hist -> ch_record c = rec ch -> l <> [] ->
  exists s d s' us ps, single_subscribe w c ch = EOk s /\ single_run fp w c ch l h s = (h ++ d, EOk (s', us)) /\
    (us <> [] <-> (exists x, In (S1Value x) l) /\ In S1Props l) /\
    (us <> [] -> concat us = ss_cur s ++ concat ps) /\
    Forall2 (fun e p => exists pre post, d = pre ++ post /\
       event_members fp w (hist (h ++ pre)) (pv_field c ch) c (match e with S1Value x => x | S1Props => props_only end) 0 p) l ps.
Proof.
  intros fp w c ch rec hist l h Ha Hr He Hs Hl Hp Nl.
  assert (Sub : exists s, single_subscribe w c ch = EOk s /\ ss_value s = false /\ ss_prop s = false).
  { unfold single_subscribe. destruct (initialize _ _ _ _ _ _) as (s0 & r) eqn:E.
    destruct (fine_initialize w MScalar c ch [] (fun _ => Hr) _ _ _ E) as (_ & _ & _ & _ & ->). eexists. split; [reflexivity|split; reflexivity]. }
  destruct Sub as (s & Es & V & P).
  destruct (single_run_spec fp w c ch rec hist l Ha Hr He Hs Hl Hp h s) as (d & s' & us & ps & Er & C & F & Fv & Fp & U1 & U2).
  rewrite V in Fv. rewrite P in Fp. cbn [orb] in Fv, Fp.
  exists s, d, s', us, ps. split; [exact Es|split; [exact Er|split; [|split]]].
  - split.
    + intros Hu. destruct (U1 Hu) as (A & B). rewrite A in Fv. rewrite B in Fp. symmetry in Fv, Fp. apply existsb_exists in Fv, Fp.
      destruct Fv as (e1 & I1 & T1). destruct Fp as (e2 & I2 & T2). destruct e1; [|discriminate]. destruct e2; [discriminate|]. eauto.
    + intros ((x & I1) & I2). apply U2; [exact Nl| |].
      * rewrite Fv. apply existsb_exists. exists (S1Value x). auto.
      * rewrite Fp. apply existsb_exists. exists S1Props. auto.
  - intros Hu. destruct (U1 Hu) as (A & B). destruct (U2 Nl A B) as (_ & Cu). rewrite Cu, app_nil_r in C. exact C.
  - clear - F Hr He. induction F as [|e p l ps (pre & po & Ed & Sh) F IH]; constructor; [|exact IH]. exists pre, po. split; [exact Ed|]. apply pv_members; assumption.
Qed.
(** A PUT which sends only another member writes the value 0 to the record. *)
Theorem C90_other_member_refuted : exists s', single_put no_fpu (o_world (fun _ => true)) (o_chan 0 DDouble 1) (bs "A") o_creds {| sc_block := false; sc_force := Unset |}
    (fun x => x) {| sn_marked := [p2 "alarm" "severity"]; sn_at := fun p => if list_eq_dec (list_eq_dec Z.eq_dec) p [bs "value"] then SLeaf (PReal 0) else SStruct |} s0 = (s', EOk tt) /\
  s_acts s' = [ALock [0%nat]; AWrite (bs "A") (WNum DDouble 0); AProcess 0; AUnlock [0%nat]].
Proof. eexists. split; [vm_compute; reflexivity|vm_compute; reflexivity]. Qed.
(** With Q:time:tag a MONITOR shows another time than a GET: it does not split the nanoseconds. *)
Definition o_tag : world := {| w_attr := fun _ => {| ca_attribute := false; ca_disp := false; ca_proc := false; ca_passive := true; ca_link := false; ca_final_link := false;
     ca_mask := 255; ca_form := None |}; w_allow := w_allow (o_world (fun _ => true)); w_disp := fun _ _ => false; w_pact := fun _ _ => false; w_scan := fun _ _ => true;
     w_meta := fun _ => mo_meta o_moment; w_props := fun _ => mo_props o_moment; w_value := fun _ => mo_value o_moment;
     w_put := fun _ _ _ => true; w_process := fun _ _ => true; w_alarm_name := fun _ => bs "HIHI" |}.
Theorem C90_tag_refuted : exists sg s h s' us, single_get no_fpu o_tag (o_chan 0 DDouble 1) (bs "A") s0 = (sg, EOk tt) /\
  single_subscribe o_tag (o_chan 0 DDouble 1) (bs "A") = EOk s /\
  single_run no_fpu o_tag (o_chan 0 DDouble 1) (bs "A") [S1Props; S1Value value_alarm] [] s = (h, EOk (s', us)) /\
  content_at (s_val sg) (p2 "timeStamp" "nanoseconds") (PUInt 123456768) /\ content_at (s_val sg) (p2 "timeStamp" "userTag") (PUInt 21) /\
  In (p2 "timeStamp" "nanoseconds", PUInt 123456789) (concat us) /\ In (p2 "timeStamp" "userTag", PUInt 5) (concat us).
Proof.
  eexists. eexists. eexists. eexists. eexists. split; [vm_compute; reflexivity|]. split; [vm_compute; reflexivity|]. split; [vm_compute; reflexivity|].
  split; [|split; [|split; vm_compute; tauto]].
  - split; [vm_compute; tauto|]. vm_compute. intros v' H. repeat (destruct H as [H | H]; [try discriminate; inversion H; reflexivity|]). destruct H.
  - split; [vm_compute; tauto|]. vm_compute. intros v' H. repeat (destruct H as [H | H]; [try discriminate; inversion H; reflexivity|]). destruct H.
Qed.
Example C90_example : exists s', honest (fun x => x) /\ single_put no_fpu (o_world (fun _ => true)) (o_chan 1 DLong 1) (bs "B") o_creds {| sc_block := false; sc_force := Unset |}
    (fun x => x) (o_sent [([bs "value"], 5)]) s0 = (s', EOk tt) /\
  s_acts s' = [ALock [1%nat]; AWrite (bs "B") (WNum DLong 5); AProcess 1; AUnlock [1%nat]] /\
  ~ allowed (o_world (fun _ => false)) [] (bs "B") o_creds /\
  answers (o_world (fun _ => true)) /\ readable (o_chan 1 DLong 1) /\ ch_record (o_chan 1 DLong 1) = o_rec (bs "B").
Proof.
  eexists. split; [|split; [vm_compute; reflexivity|split; [reflexivity|split; [|split; [apply o_answers|split; [|reflexivity]]]]]].
  - intros x Ap s s' r E. destruct (Ap _ _ _ E) as (d & Ed). exists d. split; [exact Ed|]. intros ch y I. exists s, s', r, d. auto.
  - intros (n & _ & E). vm_compute in E. discriminate.
  - split; [reflexivity|split; [discriminate|cbn; lia]].
Qed.

(** ** C91: what members show *)
(** Each field of a group shows, in a GET, all of its record: properties, time, alarm and
    value as they are. *)
Theorem C91_field : forall fp w m f c a,
  cf_chan f = Some c -> readable c -> ftype f <> MConst -> (ftype f = MScalar -> ch_type c = DEnum -> ch_elems c = 1) ->
  (ftype f = MAny -> cf_any f = Some (any_code c)) -> shows fp w m f a ->
  exists form a1, a = form ++ a1 /\ event_members fp w m f c everything (mask_of w f) a1 /\
    form = (match ftype f with
            | MScalar => if has_member (node_members MScalar c) (p3 "display" "form" "choices")
                         then map (fun x => (node_of f ++ fst x, snd x)) (form_list (ca_form (w_attr w (chan_name f)))) else []
            | _ => [] end).
Proof.
  intros fp w m f c a Ec Hr Nc H1 H2 Sh.
  assert (Hm : mapped f c) by (split; [exact Ec|destruct (ftype f); auto]).
  destruct (shows_members fp w m f c a Hm Hr Nc Sh) as (a0 & a1 & -> & F & M). exists a0, a1. split; [reflexivity|split; [exact M|exact F]].
Qed.
(** Times are exact before 2106; with Q:time:tag the low bits are the tag and both together
    are the nanoseconds. *)
Theorem C91_time : forall x, 0 <= m_sec x -> m_sec x + 631152000 < 2 ^ 32 -> 0 <= m_nsec x < 2 ^ 32 ->
  time_members x 0 = [(p2 "timeStamp" "secondsPastEpoch", PUInt (m_sec x + 631152000)); (p2 "timeStamp" "nanoseconds", PUInt (m_nsec x));
                      (p2 "timeStamp" "userTag", PUInt (m_utag x))] /\
  forall k, 1 <= k <= 32 -> exists ns tag, time_members x (2 ^ k - 1) =
      [(p2 "timeStamp" "secondsPastEpoch", PUInt (m_sec x + 631152000)); (p2 "timeStamp" "nanoseconds", PUInt ns); (p2 "timeStamp" "userTag", PUInt tag)] /\
    ns + tag = m_nsec x /\ 0 <= tag < 2 ^ k /\ ns mod 2 ^ k = 0.
Proof.
  intros x S1 S2 N. assert (ES : (m_sec x + 631152000) mod 2 ^ 32 = m_sec x + 631152000) by (apply Z.mod_small; lia). split.
  - unfold time_members. rewrite ES, Z.eqb_refl, Z.lxor_0_l. change (2 ^ 32 - 1) with (Z.ones 32). rewrite Z.land_ones, Z.mod_small by lia. reflexivity.
  - intros k K. exists (m_nsec x - m_nsec x mod 2 ^ k), (m_nsec x mod 2 ^ k).
    assert (P : 2 ^ 1 <= 2 ^ k) by (apply Z.pow_le_mono_r; lia). change (2 ^ 1) with 2 in P.
    assert (T : Z.land (m_nsec x) (2 ^ k - 1) = m_nsec x mod 2 ^ k).
    { replace (2 ^ k - 1) with (Z.ones k) by (rewrite Z.ones_equiv; lia). apply Z.land_ones. lia. }
    assert (L : Z.land (m_nsec x) (Z.lxor (2 ^ k - 1) (2 ^ 32 - 1)) = m_nsec x - m_nsec x mod 2 ^ k).
    { assert (E : Z.ldiff (m_nsec x) (Z.ones k) = m_nsec x - m_nsec x mod 2 ^ k).
      { rewrite Z.ldiff_ones_r, Z.shiftr_div_pow2, Z.shiftl_mul_pow2 by lia. pose proof (Z.div_mod (m_nsec x) (2 ^ k)). lia. }
      rewrite <- E. replace (2 ^ k - 1) with (Z.ones k) by (rewrite Z.ones_equiv; lia). change (2 ^ 32 - 1) with (Z.ones 32).
      apply Z.bits_inj'. intros n Hn. rewrite Z.land_spec, Z.lxor_spec, Z.ldiff_spec.
      destruct (Z.ltb_spec n 32).
      - rewrite (Z.ones_spec_low 32) by lia. destruct (Z.testbit (Z.ones k) n); reflexivity.
      - replace (Z.testbit (m_nsec x) n) with false; [reflexivity|]. symmetry. rewrite <- (Z.mod_small (m_nsec x) (2 ^ 32)) by lia. apply Z.mod_pow2_bits_high. lia. }
    unfold time_members. rewrite ES, L, T. destruct (Z.eqb_spec (2 ^ k - 1) 0); [lia|]. split; [reflexivity|]. split; [lia|]. split; [apply Z.mod_pos_bound; lia|].
    rewrite Zminus_mod_idemp_r, Z.sub_diag. apply Z.mod_0_l. lia.
Qed.
(** The alarm of a record, its message only if the record gives none the name of the status. *)
Theorem C91_alarm : forall w x, 
  (plain_text (m_amsg x) -> m_amsg x <> [] -> message_of w x = m_amsg x) /\
  (m_amsg x = [] -> 1 <= m_status x <= 21 -> message_of w x = w_alarm_name w (m_status x)) /\
  (m_amsg x = [] -> m_status x = 0 -> message_of w x = [] /\ status_of (m_status x) = 0) /\
  (1 <= m_status x -> 1 <= status_of (m_status x) <= 6).
Proof.
  intros w x. unfold message_of. split; [|split; [|split]].
  - intros P N. assert (E : c_str (m_amsg x) = m_amsg x) by (apply c_str_plain; exact P). rewrite E. destruct (m_amsg x); [contradiction|reflexivity].
  - intros -> R. cbn [c_str]. destruct (Z.eqb_spec (m_status x) 0); [lia|]. destruct (Z.leb_spec 22 (m_status x)); [lia|]. reflexivity.
  - intros -> ->. split; reflexivity.
  - intros R. unfold status_of. repeat match goal with |- context [if ?b then _ else _] => destruct b eqn:? end; lia.
Qed.
(** A date after 2106 wraps. *)
Theorem C91_time_refuted : exists x, 0 <= m_sec x < 2 ^ 32 /\ In (p2 "timeStamp" "secondsPastEpoch", PUInt 0) (time_members x 0).
Proof. exists {| m_status := 0; m_severity := 0; m_amsg := []; m_sec := 3663815296; m_nsec := 0; m_utag := 0 |}. split; [cbn; lia|]. left. vm_compute. reflexivity. Qed.
(** The last character of a long string which fills its array is not shown. *)
Definition o_long : world := {| w_attr := fun _ => o_attr; w_allow := fun _ _ _ _ => true; w_disp := fun _ _ => false; w_pact := fun _ _ => false; w_scan := fun _ _ => true;
     w_meta := fun _ => mo_meta o_moment; w_props := fun _ => mo_props o_moment; w_value := fun _ _ => Some (RNums (bs "full"));
     w_put := fun _ _ _ => true; w_process := fun _ _ => true; w_alarm_name := fun _ => bs "HIHI" |}.
Theorem C91_long_refuted : exists s', single_get no_fpu o_long {| ch_record := 0; ch_type := DChar; ch_elems := 4; ch_link := false; ch_text := true |} (bs "A") s0 = (s', EOk tt) /\
  In ([bs "value"], PStr (bs "ful")) (s_val s').
Proof. eexists. split; [vm_compute; reflexivity|vm_compute; tauto]. Qed.
(** Numbers which do not fit the record wrap: 65537 selects the choice 1 of an enum. *)
Theorem C91_wrap_refuted : exists s', single_put no_fpu (o_world (fun _ => true)) (o_chan 3 DEnum 1) (bs "E") o_creds {| sc_block := false; sc_force := Unset |} (fun x => x)
    {| sn_marked := [p2 "value" "index"]; sn_at := fun p => if list_eq_dec (list_eq_dec Z.eq_dec) p (p2 "value" "index") then SLeaf (PInt 65537) else SStruct |} s0 = (s', EOk tt) /\
  In (AWrite (bs "E") (WNum DEnum 1)) (s_acts s').
Proof. eexists. split; [vm_compute; reflexivity|vm_compute; tauto]. Qed.
(** A text of more than 39 bytes is cut, and the PUT succeeds. *)
Theorem C91_cut_refuted : exists s', single_put no_fpu (o_world (fun _ => true)) (o_chan 2 DString 1) (bs "S") o_creds {| sc_block := false; sc_force := Unset |} (fun x => x)
    {| sn_marked := [[bs "value"]]; sn_at := fun _ => SLeaf (PStr (repeat 65 40)) |} s0 = (s', EOk tt) /\
  In (AWrite (bs "S") (WText (repeat 65 39))) (s_acts s').
Proof. eexists. split; [vm_compute; reflexivity|vm_compute; tauto]. Qed.
(** An array which is not given is not written, and the PUT succeeds. *)
Theorem C91_null_refuted : exists s', single_put no_fpu (o_world (fun _ => true)) (o_chan 0 DDouble 4) (bs "A") o_creds {| sc_block := false; sc_force := Unset |} (fun x => x)
    {| sn_marked := [[bs "value"]]; sn_at := fun _ => SLeaf (PArr ANull) |} s0 = (s', EOk tt) /\ written (s_acts s') = [].
Proof. eexists. split; [vm_compute; reflexivity|vm_compute; reflexivity]. Qed.
Example C91_example : exists f a, cf_chan f = Some (o_chan 0 DDouble 1) /\ ftype f = MScalar /\ readable (o_chan 0 DDouble 1) /\
  shows no_fpu (o_world (fun _ => true)) o_moment f a /\ In ([bs "value"], PReal 7) a /\ In (p2 "display" "units", PStr (bs "mm")) a.
Proof.
  set (f := pv_field (o_chan 0 DDouble 1) (bs "A")).
  destruct (steady_get_field no_fpu (o_world (fun _ => true)) o_moment f) as (d & a & r & H).
  pose proof (H s0) as H0. unfold s0 at 2 3 in H0. cbn [s_acts s_val app] in H0.
  assert (E : exists s', get_field no_fpu (frozen (o_world (fun _ => true)) o_moment) f s0 = (s', EOk tt) /\ In ([bs "value"], PReal 7) (s_val s') /\ In (p2 "display" "units", PStr (bs "mm")) (s_val s')).
  { eexists. split; [vm_compute; reflexivity|]. split; vm_compute; tauto. }
  destruct E as (s' & E & I1 & I2). rewrite E in H0. inversion H0; subst. exists f, a.
  split; [reflexivity|]. split; [reflexivity|]. split; [split; [reflexivity|split; [discriminate|cbn; lia]]|]. split; [|auto].
  intros s. rewrite H. eexists. split; reflexivity.
Qed.

(** ** C92: credentials *)
Lemma cut_last_all c s : cut_last c s = None -> ~ In c s.
Proof.
  induction s as [|x s IH]; cbn [cut_last]; [intros _ []|]. destruct (cut_last c s) as [(a & b)|]; [discriminate|]. destruct (Z.eqb_spec x c) as [->|N]; [discriminate|].
  intros _ [I | I]; [contradiction|]. exact (IH eq_refl I).
Qed.
Lemma cut_last_rest c s : forall a b, cut_last c s = Some (a, b) -> ~ In c b.
Proof.
  induction s as [|x s IH]; cbn [cut_last]; intros a b E; [discriminate|]. destruct (cut_last c s) as [(a' & b')|] eqn:Ec.
  - inversion E; subst. exact (IH _ _ eq_refl).
  - destruct (Z.eqb_spec x c); [|discriminate]. inversion E; subst. exact (cut_last_all _ _ Ec).
Qed.
(** Names by which access security knows a client: the account, of "ca" what follows the
    last slash, of others with the method before it; and its roles. *)
Theorem C92_names : forall c,
  (cl_method c <> bs "ca" -> In (cl_method c ++ bs "/" ++ cl_account c) (cr_names (credentials c))) /\
  (cl_method c = bs "ca" -> ~ In 47 (cl_account c) -> In (cl_account c) (cr_names (credentials c))) /\
  (forall a b, cl_method c = bs "ca" -> cl_account c = a ++ bs "/" ++ b -> ~ In 47 b -> In b (cr_names (credentials c))) /\
  (forall r, In r (cl_roles c) -> In (bs "role/" ++ r) (cr_names (credentials c))) /\
  length (cr_names (credentials c)) = S (length (cl_roles c)).
Proof.
  intros c. unfold credentials. cbn [cr_names]. split; [|split; [|split; [|split]]].
  - intros N. left. destruct (str_eqb (cl_method c) (bs "ca")) eqn:E; [apply str_eqb_eq in E; contradiction|reflexivity].
  - intros -> N. left. rewrite str_eqb_refl, GroupProofs.cut_last_none by exact N. reflexivity.
  - intros a b -> -> N. left. rewrite str_eqb_refl. change (a ++ bs "/" ++ b) with (a ++ 47 :: b). rewrite GroupProofs.cut_last_app by exact N. reflexivity.
  - intros r I. right. apply (in_map (fun r => bs "role/" ++ r)), I.
  - cbn [length]. rewrite map_length. reflexivity.
Qed.
(** A client which names itself can not pose as a role or as one of another method: the
    name which "ca" gives has no slash, that of another method begins with the method, and
    all others are its roles. *)
Theorem C92_no_pose : forall c n, In n (cr_names (credentials c)) ->
  (cl_method c = bs "ca" /\ ~ In 47 n) \/ (cl_method c <> bs "ca" /\ n = cl_method c ++ bs "/" ++ cl_account c) \/
  (exists r, In r (cl_roles c) /\ n = bs "role/" ++ r).
Proof.
  intros c n [<- | I]; [|right; right; apply in_map_iff in I; destruct I as (r & <- & I); eauto].
  destruct (str_eqb (cl_method c) (bs "ca")) eqn:E.
  - left. apply str_eqb_eq in E. split; [exact E|]. destruct (in_dec Z.eq_dec 47 (cl_account c)) as [I | N].
    + destruct (cut_last 47 (cl_account c)) as [(a & b)|] eqn:Ec.
      * exact (cut_last_rest _ _ _ _ Ec).
      * exfalso. exact (cut_last_all _ _ Ec I).
    + rewrite GroupProofs.cut_last_none by exact N. exact N.
  - right. left. split; [|reflexivity]. intros H. rewrite H, str_eqb_refl in E. discriminate.
Qed.
(** The host is the address without its port. *)
Theorem C92_host : forall c a p, cl_peer c = a ++ bs ":" ++ p -> ~ In 58 a -> cr_host (credentials c) = a.
Proof.
  intros c a p E N. unfold credentials. cbn [cr_host]. rewrite E. clear E. change (a ++ bs ":" ++ p) with (a ++ 58 :: p).
  induction a as [|x a IH]; cbn [app before_first]; [reflexivity|].
  destruct (Z.eqb_spec x 58) as [->|]; [destruct N; left; reflexivity|]. f_equal. apply IH. intros I. apply N. right. exact I.
Qed.
(** All hosts with an IPv6 address are the same host "[". *)
Theorem C92_host_refuted : exists c, cl_peer c = bs "[::1]:5075" /\ cr_host (credentials c) = bs "[".
Proof. exists {| cl_peer := bs "[::1]:5075"; cl_method := bs "ca"; cl_account := bs "me"; cl_roles := [] |}. split; reflexivity. Qed.
Example C92_example : exists c, cl_peer c = bs "10.0.0.1:34567" /\ cr_host (credentials c) = bs "10.0.0.1" /\
  cr_names (credentials c) = [bs "me"; bs "role/op"].
Proof. exists {| cl_peer := bs "10.0.0.1:34567"; cl_method := bs "ca"; cl_account := bs "dom/me"; cl_roles := [bs "op"] |}. repeat split. Qed.

Print Assumptions C89_first.
Print Assumptions C89_all.
Print Assumptions C89_event.
Print Assumptions C89_first_refuted.
Print Assumptions C90_permitted.
Print Assumptions C90_writes.
Print Assumptions C90_get.
Print Assumptions C90_monitor.
Print Assumptions C90_other_member_refuted.
Print Assumptions C90_tag_refuted.
Print Assumptions C91_field.
Print Assumptions C91_time.
Print Assumptions C91_alarm.
Print Assumptions C91_time_refuted.
Print Assumptions C91_long_refuted.
Print Assumptions C91_wrap_refuted.
Print Assumptions C91_cut_refuted.
Print Assumptions C91_null_refuted.
Print Assumptions C92_names.
Print Assumptions C92_no_pose.
Print Assumptions C92_host.
Print Assumptions C92_host_refuted.
