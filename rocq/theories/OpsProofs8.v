(** MONITOR of a group. *)
From Coq Require Import String ZArith List Bool Lia Arith.
From Verif Require Import Base BaseProofs WireModel TypeModel TextModel ValueModel MarkModel CopyModel NtModel GroupModel OpsModel OpsSpec
  OpsProofs OpsProofs2 OpsProofs3 OpsProofs4 OpsProofs5 OpsProofs6 OpsProofs7.
Import ListNotations.
Local Open Scope Z_scope.

Definition posted (o : option (list assignment)) : list assignment := match o with Some u => u | None => [] end.
Lemma sub_post_keeps s : posted (snd (sub_post s)) ++ gs_cur (fst (sub_post s)) = gs_cur s.
Proof.
  unfold sub_post. destruct (gs_primed s).
  - destruct (gs_cur s) eqn:E; cbn [is_nil fst snd posted gs_cur]; [rewrite E; reflexivity|rewrite app_nil_r; reflexivity].
  - destruct (_ && _); cbn [fst snd posted gs_cur]; [rewrite app_nil_r; reflexivity|reflexivity].
Qed.
(** ** What events add *)
Lemma steady_read_field fp w m x f : steady (read_field fp (frozen w m) x f).
Proof.
  unfold read_field, ioc_get. cbv zeta. destruct (ftype f); steady_tac;
    unfold get_properties, get_time_alarm, get_scalar, get_array; cbv zeta; cbn [frozen w_meta w_props w_value]; steady_tac.
Qed.
Definition event_op fp w (g : group) (e : sevent) : op unit :=
  match e with
  | SStart => ret tt
  | SValue i x => match nth_error (g_fields g) i with
                  | None => ret tt
                  | Some f => if sub_value f then read_triggered fp w (g_fields g) i f x else ret tt
                  end
  | SProps i => match nth_error (g_fields g) i with
                | None => ret tt
                | Some f => match cf_chan f with
                            | None => ret tt
                            | Some c => if has_props f then with_lock [ch_record c] (read_field fp w props_only f) else ret tt
                            end
                end
  end.
Definition event_flags (g : group) (e : sevent) (s : gsub) : list bool * list bool :=
  match e with
  | SValue i _ => (set_nth i (gs_value s), gs_prop s)
  | SProps i => (gs_value s, set_nth i (gs_prop s))
  | SStart => (gs_value s, gs_prop s)
  end.
Lemma sub_value_iff f : cf_chan f <> None -> ftype f <> MConst -> sub_value f = true.
Proof. intros A B. unfold sub_value, no_chan. destruct (cf_chan f); [|contradiction]. destruct (ftype f); try reflexivity. contradiction. Qed.
Lemma has_props_iff f : has_props f = true <-> ftype f = MScalar \/ ftype f = MMeta.
Proof. unfold has_props. destruct (ftype f); (split; [intros H; try discriminate; auto|intros [H | H]; congruence || reflexivity]). Qed.
Lemma sub_step_eq fp w g e h s :
  has_event g e ->
  sub_step fp w g e h s =
  let '(o, r) := event_op fp w g e {| s_acts := h; s_val := gs_cur s |} in
  let s' := {| gs_primed := gs_primed s; gs_value := fst (event_flags g e s); gs_prop := snd (event_flags g e s); gs_cur := s_val o |} in
  (s_acts o, match r with EOk _ => EOk (sub_post s') | EErr _ => EOk (s', None) | EUB => EUB end).
Proof.
  intros H. destruct e as [i x|i|]; cbn [has_event] in H.
  - destruct H as (f & E & Hc & Ht). unfold sub_step, event_op. rewrite E, (sub_value_iff f Hc Ht). reflexivity.
  - destruct H as (f & E & Hc & Ht). unfold sub_step, event_op. rewrite E. destruct (cf_chan f); [|contradiction].
    rewrite (proj2 (has_props_iff f) Ht). reflexivity.
  - unfold sub_step, event_op, ret. cbn [event_flags fst snd s_acts s_val]. destruct s. reflexivity.
Qed.
Lemma event_ok fp w g e : answers w -> wired (g_fields g) -> triggers_exist g -> has_event g e -> fine (event_op fp w g e).
Proof.
  intros Ha Hw Ht He. destruct e as [i x|i|]; cbn [has_event event_op] in *.
  - destruct He as (f & E & Hc & Hy). rewrite E, (sub_value_iff f Hc Hy). unfold read_triggered. apply fine_lock, fine_each. intros j Ij.
    pose proof (Ht f j (nth_error_In _ _ E) Ij) as L. destruct (nth_error (g_fields g) j) as [t|] eqn:Ej.
    + apply fine_read_field; [exact Ha|]. apply Hw. eapply nth_error_In, Ej.
    + apply nth_error_None in Ej. lia.
  - destruct He as (f & E & Hc & Hy). rewrite E. destruct (cf_chan f); [|apply fine_ret]. destruct (has_props f); [|apply fine_ret].
    apply fine_lock, fine_read_field; [exact Ha|]. apply Hw. eapply nth_error_In, E.
  - apply fine_ret.
Qed.
(** the pieces of one event *)
Lemma each_pieces fp w m g i x l : forall s s',
  each (fun j => match nth_error (g_fields g) j with
                 | Some t => read_field fp (frozen w m) (if (j =? i)%nat then x else value_alarm) t
                 | None => undefined
                 end) l s = (s', EOk tt) ->
  exists ps, s_val s' = s_val s ++ concat ps /\
    Forall2 (fun j p => exists t, nth_error (g_fields g) j = Some t /\ part_of fp w m t (if (j =? i)%nat then x else value_alarm) p) l ps.
Proof.
  induction l as [|j l IH]; intros s s' E; cbn [each] in E.
  - unfold ret in E. inversion E; subst. exists []. rewrite app_nil_r. split; [reflexivity|constructor].
  - unfold seq, bind in E. destruct (nth_error (g_fields g) j) as [t|] eqn:Ej; [|discriminate].
    destruct (steady_read_field fp w m (if (j =? i)%nat then x else value_alarm) t) as (d & a & r & H).
    rewrite H in E. destruct r as [[] | |]; try discriminate.
    destruct (IH _ _ E) as (ps & E2 & F). exists (a :: ps). split.
    + rewrite E2. cbn [s_val concat]. rewrite <- app_assoc. reflexivity.
    + constructor; [|exact F]. exists t. split; [exact Ej|]. intros s0. rewrite H. eexists. split; reflexivity.
Qed.
Lemma in_triggered fields f j t : In j (cf_trig f) -> nth_error fields j = Some t -> In t (triggered fields f).
Proof. intros I E. unfold triggered. apply in_flat_map. exists j. split; [exact I|]. rewrite E. left. reflexivity. Qed.
Lemma event_shown fp w g e rec hist s s' :
  seen w hist -> locks_work rec hist -> places rec (g_fields g) -> has_event g e ->
  event_op fp w g e s = (s', EOk tt) ->
  exists d a, s_acts s' = s_acts s ++ d /\ s_val s' = s_val s ++ a /\
    exists pre po, d = pre ++ po /\ event_shows fp w g (hist (s_acts s ++ pre)) e a.
Proof.
  intros Hs Hl Hp He E. destruct e as [i x|i|]; cbn [has_event event_op] in *.
  - destruct He as (f & Ei & Hc & Hy). rewrite Ei, (sub_value_iff f Hc Hy) in E. unfold read_triggered in E.
    set (rs := records_of (triggered (g_fields g) f)) in *.
    rewrite (lock_frozen w rec hist rs (fun w => each (fun j => match nth_error (g_fields g) j with
       | Some g0 => read_field fp w (if (j =? i)%nat then x else value_alarm) g0 | None => undefined end) (cf_trig f)) s Hs Hl) in E.
    2: { intros h0. apply same_each. intros j Ij. destruct (nth_error (g_fields g) j) as [t|] eqn:Ej; [|apply same_undefined].
         apply (same_read_field fp w rec hist Hs Hl). intros c Ec. rewrite <- (Hp t c (nth_error_In _ _ Ej) Ec).
         eapply in_records; [|exact Ec]. eapply in_triggered; eassumption. }
    set (m := hist (s_acts s ++ [ALock rs])) in *. unfold with_lock in E.
    destruct (each _ (cf_trig f) _) as (s1 & r1) eqn:E1. inversion E; subst. destruct (each_pieces fp w m g i x _ _ _ E1) as (ps & E2 & F).
    assert (Q : exists d, s_acts s1 = (s_acts s ++ [ALock rs]) ++ d).
    { assert (C : calls (fun _ _ => True) (each (fun j => match nth_error (g_fields g) j with
         | Some g0 => read_field fp (frozen w m) (if (j =? i)%nat then x else value_alarm) g0 | None => undefined end) (cf_trig f))).
      { apply calls_each. intros j _. destruct (nth_error (g_fields g) j); [apply calls_read_field; auto|apply calls_undefined]. }
      destruct (C _ _ _ E1) as (d & v & Ed & _ & _). exists d. exact Ed. }
    destruct Q as (d & Ed). cbn [s_acts s_val] in *. exists ([ALock rs] ++ d ++ [AUnlock rs]), (concat ps).
    split; [rewrite Ed, <- !app_assoc; reflexivity|split; [exact E2|]]. exists [ALock rs], (d ++ [AUnlock rs]).
    split; [reflexivity|]. exists f, ps. auto.
  - destruct He as (f & Ei & Hc & Hy). rewrite Ei in E. destruct (cf_chan f) as [c|] eqn:Ec; [|contradiction].
    rewrite (proj2 (has_props_iff f) Hy) in E.
    rewrite (lock_frozen w rec hist [ch_record c] (fun w => read_field fp w props_only f) s Hs Hl) in E.
    2: { intros h0. apply (same_read_field fp w rec hist Hs Hl). intros c' Ec'. rewrite Ec in Ec'. inversion Ec'; subst.
         rewrite <- (Hp f c' (nth_error_In _ _ Ei) Ec). left. reflexivity. }
    set (m := hist (s_acts s ++ [ALock [ch_record c]])) in *.
    destruct (steady_read_field fp w m props_only f) as (d & a & r & H).
    unfold with_lock in E. rewrite H in E. inversion E; subst. cbn [s_acts s_val].
    exists ([ALock [ch_record c]] ++ d ++ [AUnlock [ch_record c]]), a. split; [rewrite <- !app_assoc; reflexivity|split; [reflexivity|]].
    exists [ALock [ch_record c]], (d ++ [AUnlock [ch_record c]]). split; [reflexivity|]. exists f. split; [exact Ei|].
    intros s0. rewrite H. eexists. split; reflexivity.
  - unfold ret in E. inversion E; subst. exists [], []. rewrite !app_nil_r. split; [reflexivity|split; [reflexivity|]].
    exists [], []. split; reflexivity.
Qed.

(** ** Histories *)
Definition monitor_shows fp w g hist (h d : list act) (e : sevent) (a : list assignment) : Prop :=
  exists pre po, d = pre ++ po /\ event_shows fp w g (hist (h ++ pre)) e a.
Lemma shows_later fp w g hist h d1 d2 e a : monitor_shows fp w g hist (h ++ d1) d2 e a -> monitor_shows fp w g hist h (d1 ++ d2) e a.
Proof.
  intros (pre & po & -> & H). exists (d1 ++ pre), po. rewrite app_assoc. split; [reflexivity|]. rewrite <- app_assoc in H. exact H.
Qed.
Lemma shows_before fp w g hist h d1 d2 e a : monitor_shows fp w g hist h d1 e a -> monitor_shows fp w g hist h (d1 ++ d2) e a.
Proof. intros (pre & po & -> & H). exists pre, (po ++ d2). rewrite <- app_assoc. auto. Qed.
Definition cons_posted (o : option (list assignment)) (us : list (list assignment)) := match o with Some u => u :: us | None => us end.
Lemma concat_posted o us : concat (cons_posted o us) = posted o ++ concat us.
Proof. destruct o; reflexivity. Qed.
Lemma run_cons fp w g e l h s s1 o h1 :
  sub_step fp w g e h s = (h1, EOk (s1, o)) ->
  sub_run fp w g (e :: l) h s =
  match sub_run fp w g l h1 s1 with
  | (h'', EOk (s'', us)) => (h'', EOk (s'', cons_posted o us))
  | r => r
  end.
Proof. intros E. cbn [sub_run]. rewrite E. reflexivity. Qed.

Lemma run_shown fp w g rec hist l :
  answers w -> wired (g_fields g) -> triggers_exist g ->
  seen w hist -> locks_work rec hist -> places rec (g_fields g) ->
  Forall (has_event g) l -> forall h s,
  exists d s' us ps, sub_run fp w g l h s = (h ++ d, EOk (s', us)) /\
    concat us ++ gs_cur s' = gs_cur s ++ concat ps /\ Forall2 (monitor_shows fp w g hist h d) l ps.
Proof.
  intros Ha Hw Ht Hs Hl Hp F. induction F as [|e l He F IH]; intros h s.
  - exists [], s, [], []. cbn. rewrite !app_nil_r. split; [reflexivity|split; [reflexivity|constructor]].
  - pose proof (sub_step_eq fp w g e h s He) as E.
    destruct (event_op fp w g e {| s_acts := h; s_val := gs_cur s |}) as (o & r) eqn:Eo.
    destruct (event_ok fp w g e Ha Hw Ht He _ _ _ Eo) as (_ & _ & _ & _ & Er). subst r.
    destruct (event_shown fp w g e rec hist _ _ Hs Hl Hp He Eo) as (d1 & a & E1 & E2 & Hm). cbn [s_acts s_val] in *.
    cbv zeta in E. rewrite E1, E2 in E.
    set (s0 := {| gs_primed := gs_primed s; gs_value := fst (event_flags g e s); gs_prop := snd (event_flags g e s); gs_cur := gs_cur s ++ a |}) in *.
    destruct (sub_post s0) as (s1 & o1) eqn:Ep.
    pose proof (sub_post_keeps s0) as K. rewrite Ep in K. cbn [fst snd] in K.
    destruct (IH (h ++ d1) s1) as (d2 & s' & us & ps & R & C & F2).
    exists (d1 ++ d2), s', (cons_posted o1 us), (a :: ps).
    rewrite (run_cons fp w g e l h s s1 o1 (h ++ d1) E), R, <- app_assoc. split; [reflexivity|split].
    + rewrite concat_posted, <- app_assoc, C, app_assoc, K. unfold s0. cbn [gs_cur concat]. rewrite <- app_assoc. reflexivity.
    + constructor; [apply shows_before, Hm|]. clear - F2. induction F2; constructor; [apply shows_later; assumption|assumption].
Qed.
