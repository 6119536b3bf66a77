(** Single PVs. *)
From Coq Require Import String ZArith List Bool Lia Arith.
From Verif Require Import Base BaseProofs WireModel TypeModel TextModel ValueModel MarkModel CopyModel NtModel GroupModel OpsModel OpsSpec
  OpsProofs OpsProofs2 OpsProofs3 OpsProofs4 OpsProofs5 OpsProofs6 OpsProofs7 OpsProofs8 OpsProofs10 OpsProofs11.
Import ListNotations.
Local Open Scope Z_scope.

(** ** PUT *)
Definition pv_content (v : sent) : sdata := put_content MScalar None v [].
Lemma pre_post w c ch :
  post (pre_processing w c ch)
    (fun h d a r => d = [] /\ a = [] /\
       (r = EOk tt -> ca_attribute (w_attr w ch) = false /\ (w_disp w h (ch_record c) = true -> ca_disp (w_attr w ch) = true))).
Proof.
  unfold pre_processing. destruct (ca_attribute (w_attr w ch)).
  - apply post_throw. intros h. split; [reflexivity|split; [reflexivity|discriminate]].
  - apply (post_bind _ _ (fun h d a r => d = [] /\ a = [] /\ r = EOk (w_disp w h (ch_record c)))
             (fun x h d a r => d = [] /\ a = [] /\ (r = EOk tt -> x = true -> ca_disp (w_attr w ch) = true))).
    + apply post_ask. auto.
    + intros x. destruct (x && negb (ca_disp (w_attr w ch))) eqn:E.
      * apply post_throw. intros h. split; [reflexivity|split; [reflexivity|discriminate]].
      * apply post_ret. intros h. split; [reflexivity|split; [reflexivity|]]. intros _ ->. cbn in E. apply negb_false_iff, E.
    + intros h d a r (-> & -> & ->) N. exfalso. apply N. eexists. reflexivity.
    + intros h d1 v1 x d2 v2 r (-> & -> & E) (-> & -> & H). inversion E; subst. split; [reflexivity|split; [reflexivity|]].
      intros Er. split; [reflexivity|]. apply H, Er.
Qed.
(** what a PUT of a single PV adds *)
Record pv_put (w : world) (c : chan) (ch : str) (cr : creds) (v : sent) (wait : bool) (h d : list act) (a : list assignment) (r : eres unit) : Prop := {
  pp_val : wait = false -> a = [];
  pp_write : forall ch' x, In (AWrite ch' x) d -> ch' = ch /\ wrote c (pv_content v) x;
  pp_none : d <> [] \/ r = EOk tt ->
      allowed w h ch cr /\ ca_attribute (w_attr w ch) = false /\ (w_disp w h (ch_record c) = true -> ca_disp (w_attr w ch) = true);
  pp_lock : wait = false -> ca_link (w_attr w ch) = false ->
      d = [] \/ exists m, d = ALock [ch_record c] :: m ++ [AUnlock [ch_record c]] /\ Forall no_lock m;
  pp_ok : wait = false -> r = EOk tt -> (exists x, In (AWrite ch x) d) \/ no_array (pv_content v) }.
Lemma ioc_put_writes fp w c ch v s s' r d1 : ioc_put fp w MScalar None c ch v [] s = (s', r) -> s_acts s' = s_acts s ++ d1 ->
  forall ch' x, In (AWrite ch' x) d1 -> ch' = ch /\ wrote c (pv_content v) x.
Proof.
  intros E Ed ch' x I. destruct (ioc_put_post fp w MScalar None c ch v [] _ _ _ E) as (d & a & E1 & _ & _ & D & _).
  rewrite E1 in Ed. apply app_inv_head in Ed. subst d1. destruct D as [-> | (y & -> & W)]; [destruct I|].
  destruct I as [I | []]. inversion I; subst. split; [reflexivity|exact W].
Qed.
Lemma honest_writes notify x w c ch v :
  honest notify -> (x = ret tt \/ exists fp, x = ioc_put fp w MScalar None c ch v []) ->
  forall s s' r, notify x s = (s', r) -> exists d, s_acts s' = s_acts s ++ d /\
    forall ch' y, In (AWrite ch' y) d -> ch' = ch /\ wrote c (pv_content v) y.
Proof.
  intros Hn Hx s s' r E.
  assert (Ap : forall s s' r, x s = (s', r) -> exists d, s_acts s' = s_acts s ++ d).
  { intros s1 s2 r2 E2. destruct Hx as [-> | (fp & ->)].
    - unfold ret in E2. inversion E2; subst. exists []. symmetry. apply app_nil_r.
    - destruct (ioc_put_post fp w MScalar None c ch v [] _ _ _ E2) as (d & a & E1 & _). exists d. exact E1. }
  destruct (Hn x Ap s s' r E) as (d & Ed & H). exists d. split; [exact Ed|]. intros ch' y I.
  destruct (H ch' y I) as (s0 & s1 & r1 & d1 & Ex & E1 & I1). destruct Hx as [-> | (fp & ->)].
  - unfold ret in Ex. inversion Ex; subst. rewrite <- (app_nil_r (s_acts s1)) in E1 at 1. apply app_inv_head in E1. subst d1. destruct I1.
  - exact (ioc_put_writes fp w c ch v s0 s1 r1 d1 Ex E1 ch' y I1).
Qed.
Lemma single_put_spec fp w c ch cr o notify v s s' r :
  honest notify -> single_put fp w c ch cr o notify v s = (s', r) ->
  exists d a, s_acts s' = s_acts s ++ d /\ (single_wait o = false -> s_val s' = s_val s ++ a) /\ pv_put w c ch cr v (single_wait o) (s_acts s) d a r.
Proof.
  intros Hn E. unfold single_put, seq, bind in E.
  destruct (pre_processing w c ch s) as (s1 & r1) eqn:E1.
  destruct (pre_post w c ch _ _ _ E1) as (d1 & a1 & A1 & B1 & -> & -> & P1). rewrite app_nil_r in A1, B1.
  assert (Fail : forall e s2, s_acts s2 = s_acts s -> s_val s2 = s_val s -> s' = s2 -> r = e -> e <> EOk tt ->
     exists d a, s_acts s' = s_acts s ++ d /\ (single_wait o = false -> s_val s' = s_val s ++ a) /\ pv_put w c ch cr v (single_wait o) (s_acts s) d a r).
  { intros e s2 Ea Ev -> -> Ne. exists [], []. rewrite !app_nil_r. split; [exact Ea|split; [auto|]].
    constructor; [reflexivity|intros ? ? []|intros [H | H]; contradiction|auto|intros _ H; contradiction]. }
  destruct r1 as [u | e |]; [|apply (Fail (EErr e) s1); congruence || auto; inversion E; auto; discriminate|apply (Fail EUB s1); congruence || auto; inversion E; auto; discriminate].
  destruct (field_pre_processing w (Some (ch, cr)) s1) as (s2 & r2) eqn:E2.
  destruct (field_pre_post w (Some (ch, cr)) _ _ _ E2) as (d2 & a2 & A2 & B2 & -> & -> & P2). rewrite app_nil_r in A2, B2.
  destruct r2 as [u2 | e |]; [|apply (Fail (EErr e) s2); congruence || auto; inversion E; auto; discriminate|apply (Fail EUB s2); congruence || auto; inversion E; auto; discriminate].
  destruct u. destruct (P1 eq_refl) as (Pa & Pd).
  assert (Al : allowed w (s_acts s) ch cr).
  { apply allowed_iff. rewrite <- A1. apply P2. eexists. reflexivity. }
  assert (As : s_acts s2 = s_acts s) by congruence. assert (Vs : s_val s2 = s_val s) by congruence.
  destruct (single_wait o) eqn:Ew.
  - assert (X : (match single_request v with PutProcess => ioc_put fp w MScalar None c ch v [] | ProcessOnly => ret tt end) = ret tt \/
                exists fp', (match single_request v with PutProcess => ioc_put fp w MScalar None c ch v [] | ProcessOnly => ret tt end) = ioc_put fp' w MScalar None c ch v []).
    { destruct (single_request v); [right; exists fp; reflexivity|left; reflexivity]. }
    destruct (honest_writes notify _ w c ch v Hn X s2 s' r E) as (d & Ed & H). rewrite As in Ed.
    exists d, []. split; [exact Ed|split; [discriminate|]]. constructor; [discriminate| | |discriminate|discriminate].
    + intros ch' x I. exact (H ch' x I).
    + intros _. split; [exact Al|split; [exact Pa|exact Pd]].
  - destruct (ca_link (w_attr w ch)) eqn:El.
    + destruct (ioc_put_post fp w MScalar None c ch v [] _ _ _ E) as (d & a & Ed & Ev & -> & D & K). rewrite As in Ed. rewrite Vs in Ev.
      exists d, []. split; [exact Ed|split; [auto|]]. constructor.
      * reflexivity.
      * intros ch' x I. destruct D as [-> | (y & -> & W)]; [destruct I|]. destruct I as [I | []]. inversion I; subst. auto.
      * intros _. split; [exact Al|split; [exact Pa|exact Pd]].
      * intros _ X. congruence.
      * intros _ Er. destruct (K Er) as [(x & ->) | N]; [left; exists x; left; reflexivity|right; exact N].
    + assert (P : post (with_lock [ch_record c] (seq (ioc_put fp w MScalar None c ch v []) (post_processing w c ch (sc_force o))))
         (fun h d a r => a = [] /\ (exists m, d = ALock [ch_record c] :: m ++ [AUnlock [ch_record c]] /\ Forall no_lock m) /\
            (forall ch' x, In (AWrite ch' x) d -> ch' = ch /\ wrote c (pv_content v) x) /\
            (r = EOk tt -> (exists x, In (AWrite ch x) d) \/ no_array (pv_content v)))).
      { eapply post_lock.
        - apply (post_bind (ioc_put fp w MScalar None c ch v []) (fun _ => post_processing w c ch (sc_force o)) _
            (fun _ h d a r => a = [] /\ (d = [] \/ exists p, d = [p] /\ processes (ch_record c) h p))
            (fun h d a r => a = [] /\ Forall no_lock d /\ (forall ch' x, In (AWrite ch' x) d -> ch' = ch /\ wrote c (pv_content v) x) /\
               (r = EOk tt -> (exists x, In (AWrite ch x) d) \/ no_array (pv_content v))) (ioc_put_post fp w MScalar None c ch v []) (fun _ => post_proc_post w c ch (sc_force o))).
          + intros h d a r0 (-> & D & K) N. split; [reflexivity|split; [|split]].
            * destruct D as [-> | (y & -> & _)]; repeat constructor.
            * intros ch' x I. destruct D as [-> | (y & -> & W)]; [destruct I|]. destruct I as [I | []]. inversion I; subst. auto.
            * intros Er. destruct r0; discriminate.
          + intros h x1 v1 u x2 v2 r0 (-> & D & K) (-> & D2). split; [reflexivity|].
            assert (D2' : forall ch' x, ~ In (AWrite ch' x) x2).
            { intros ch' x I. destruct D2 as [-> | (p & -> & Hp)]; [destruct I|]. destruct I as [I | []]. destruct Hp as [Hp | Hp]; congruence. }
            split; [|split].
            * apply Forall_app. split; [destruct D as [-> | (y & -> & _)]; repeat constructor|].
              destruct D2 as [-> | (p & -> & [-> | ->])]; repeat constructor.
            * intros ch' x I. apply in_app_or in I. destruct I as [I | I]; [|exfalso; exact (D2' _ _ I)].
              destruct D as [-> | (y & -> & W)]; [destruct I|]. destruct I as [I | []]. inversion I; subst. auto.
            * intros _. destruct u. destruct (K eq_refl) as [(x & ->) | N]; [left; exists x; left; reflexivity|right; exact N].
        - cbn beta. intros h d a r0 (-> & F & Wr & K). split; [reflexivity|split; [exists d; auto|split]].
          + intros ch' x I. destruct I as [I | I]; [discriminate|]. apply in_app_or in I. destruct I as [I | [I | []]]; [apply Wr, I|discriminate].
          + intros Er. destruct (K Er) as [(x & I) | N]; [left; exists x; right; apply in_or_app; left; exact I|right; exact N]. }
      destruct (P _ _ _ E) as (d & a & Ed & Ev & -> & L & Wr & K). rewrite As in Ed. rewrite Vs in Ev.
      exists d, []. split; [exact Ed|split; [auto|]]. constructor; auto.
Qed.

(** ** GET *)
Lemma steady_initialize w t c ch node : steady (initialize w t c ch node).
Proof. unfold initialize. cbv zeta. steady_tac. Qed.
Lemma steady_ioc_get fp w m t cval any mask x ch oc node : steady (ioc_get fp (frozen w m) t cval any mask x ch oc node).
Proof.
  unfold ioc_get. cbv zeta. destruct t; steady_tac;
    unfold get_properties, get_time_alarm, get_scalar, get_array; cbv zeta; cbn [frozen w_meta w_props w_value]; steady_tac.
Qed.
Lemma single_get_shows fp w c ch rec hist s s' :
  seen w hist -> locks_work rec hist -> ch_record c = rec ch ->
  single_get fp w c ch s = (s', EOk tt) ->
  exists d a pre po, s_acts s' = s_acts s ++ d /\ s_val s' = s_val s ++ a /\ d = pre ++ po /\ shows fp w (hist (s_acts s ++ pre)) (pv_field c ch) a.
Proof.
  intros Hs Hl Hr E. unfold single_get, seq, bind in E.
  destruct (steady_initialize w MScalar c ch []) as (d0 & a0 & r0 & H0).
  assert (d0 = []) as ->.
  { destruct (calls_initialize (fun _ _ => False) w MScalar c ch [] {| s_acts := []; s_val := [] |} _ _ (H0 _)) as (d & v & E1 & _ & D).
    cbn [s_acts app] in E1. subst d. destruct d0 as [|x d0]; [reflexivity|]. exfalso. exact (D [] x d0 eq_refl). }
  rewrite H0 in E. destruct r0 as [[] | |]; try discriminate.
  set (s1 := {| s_acts := s_acts s ++ []; s_val := s_val s ++ a0 |}) in *.
  rewrite (lock_frozen w rec hist [ch_record c] (fun w => ioc_get fp w MScalar None None (ca_mask (w_attr w ch)) everything ch (Some c) []) s1 Hs Hl) in E.
  2: { intros h0. apply (same_ioc_get fp w rec hist Hs Hl). intros _. left. exact Hr. }
  assert (As : s_acts s1 = s_acts s) by (unfold s1; cbn; apply app_nil_r). rewrite As in E.
  set (m := hist (s_acts s ++ [ALock [ch_record c]])) in *.
  destruct (steady_ioc_get fp w m MScalar None None (ca_mask (w_attr w ch)) everything ch (Some c) []) as (d & a & r & H).
  unfold with_lock in E. change (w_attr (frozen w m) ch) with (w_attr w ch) in E. rewrite H in E. inversion E; subst. cbn [s_acts s_val s1] in *.
  exists ([ALock [ch_record c]] ++ d ++ [AUnlock [ch_record c]]), (a0 ++ a), [ALock [ch_record c]], (d ++ [AUnlock [ch_record c]]).
  split; [rewrite app_nil_r, <- !app_assoc; reflexivity|split; [rewrite <- app_assoc; reflexivity|split; [reflexivity|]]].
  intros s0. fold m. unfold get_field. cbn [pv_field cf_chan]. unfold seq, bind.
  change (ftype (pv_field c ch)) with MScalar. change (chan_name (pv_field c ch)) with ch. change (node_of (pv_field c ch)) with (@nil str).
  change (initialize (frozen w m) MScalar c ch [] s0) with (initialize w MScalar c ch [] s0). rewrite (H0 s0).
  unfold read_field. change (ftype (pv_field c ch)) with MScalar. change (chan_name (pv_field c ch)) with ch. change (node_of (pv_field c ch)) with (@nil str).
  change (mask_of (frozen w m) (pv_field c ch)) with (ca_mask (w_attr w ch)). change (cf_chan (pv_field c ch)) with (Some c).
  change (fc_const (cf_conf (pv_field c ch))) with (@None src). change (cf_any (pv_field c ch)) with (@None Z).
  rewrite H. eexists. split; [reflexivity|]. cbn [s_val]. rewrite <- app_assoc. reflexivity.
Qed.
Lemma single_get_ok fp w c ch : answers w -> readable c -> (ch_type c = DEnum -> ch_elems c = 1) -> fine (single_get fp w c ch).
Proof.
  intros Ha R En. unfold single_get. apply fine_seq; [apply fine_initialize; auto|]. apply fine_lock.
  pose proof (fine_read_field fp w Ha everything (pv_field c ch)) as F. unfold read_field in F.
  apply F. unfold wired1. change (ftype (pv_field c ch)) with MScalar. exists c. split; [reflexivity|split; assumption].
Qed.
Lemma calls_single_get fp w c ch : calls (fun h a => ~ changes a /\ (forall x, a = ARead x -> x = ch /\ held h (ch_record c))) (single_get fp w c ch).
Proof.
  unfold single_get. apply calls_seq; [apply calls_initialize|]. apply calls_lock.
  - intros h a L. destruct a; try contradiction; (split; [intros []|intros; discriminate]).
  - eapply calls_imp; [|apply calls_ioc_get]. intros h a Hr. unfold reads in Hr. subst a. split; [exact I|]. intros Hh. split; [intros []|].
    intros x E. inversion E; subst. split; [reflexivity|]. apply Hh. left. reflexivity.
Qed.

(** ** MONITOR *)
Definition pv_event_at fp w c ch hist (h d : list act) (e : s1event) (a : list assignment) : Prop :=
  exists pre po, d = pre ++ po /\ pv_shows fp w c ch (hist (h ++ pre)) e a.
Lemma single_run_spec fp w c ch rec hist l :
  answers w -> readable c -> (ch_type c = DEnum -> ch_elems c = 1) ->
  seen w hist -> locks_work rec hist -> ch_record c = rec ch -> forall h s,
  exists d s' us ps, single_run fp w c ch l h s = (h ++ d, EOk (s', us)) /\
    concat us ++ ss_cur s' = ss_cur s ++ concat ps /\ Forall2 (pv_event_at fp w c ch hist h d) l ps /\
    ss_value s' = ss_value s || existsb (fun e => match e with S1Value _ => true | _ => false end) l /\
    ss_prop s' = ss_prop s || existsb (fun e => match e with S1Props => true | _ => false end) l /\
    (us <> [] -> ss_value s' = true /\ ss_prop s' = true) /\
    (l <> [] -> ss_value s' = true -> ss_prop s' = true -> us <> [] /\ ss_cur s' = []).
Proof.
  intros Ha R En Hs Hl Hr. induction l as [|e l IH]; intros h s.
  - exists [], s, [], []. cbn. rewrite !app_nil_r, !orb_false_r. split; [reflexivity|split; [reflexivity|split; [constructor|]]].
    split; [reflexivity|split; [reflexivity|split; [intros H; contradiction|intros H; contradiction]]].
  - set (x := match e with S1Value x => x | S1Props => props_only end).
    set (hv := match e with S1Value _ => true | S1Props => ss_value s end). set (hp := match e with S1Value _ => ss_prop s | S1Props => true end).
    assert (St : single_step fp w c ch e h s =
      let '(o, r) := with_lock [ch_record c] (ioc_get fp w MScalar None None 0 x ch (Some c) []) {| s_acts := h; s_val := ss_cur s |} in
      (s_acts o, match r with
             | EOk _ => if hv && hp
                        then EOk ({| ss_value := hv; ss_prop := hp; ss_cur := [] |}, Some (s_val o))
                        else EOk ({| ss_value := hv; ss_prop := hp; ss_cur := s_val o |}, None)
             | EErr _ => EOk ({| ss_value := hv; ss_prop := hp; ss_cur := s_val o |}, None)
             | EUB => EUB
             end)) by (unfold single_step, x, hv, hp; destruct e; reflexivity).
    rewrite (lock_frozen w rec hist [ch_record c] (fun w => ioc_get fp w MScalar None None 0 x ch (Some c) []) _ Hs Hl) in St.
    2: { intros h0. apply (same_ioc_get fp w rec hist Hs Hl). intros _. left. exact Hr. }
    cbn [s_acts] in St. set (m := hist (h ++ [ALock [ch_record c]])) in *.
    destruct (steady_ioc_get fp w m MScalar None None 0 x ch (Some c) []) as (d1 & a & r & H).
    assert (r = EOk tt) as ->.
    { assert (Am : answers (frozen w m)).
      { intros h' ch'. destruct (Ha (h ++ [ALock [ch_record c]]) ch') as (A1 & A2 & A3). destruct (Hs (h ++ [ALock [ch_record c]]) ch') as (B1 & B2 & B3).
        cbn [frozen w_meta w_props w_value]. unfold m. rewrite <- B1, <- B2, <- B3. auto. }
      set (w0 := {| w_attr := fun ch => let y := w_attr w ch in {| ca_attribute := ca_attribute y; ca_disp := ca_disp y; ca_proc := ca_proc y;
            ca_passive := ca_passive y; ca_link := ca_link y; ca_final_link := ca_final_link y; ca_mask := 0; ca_form := ca_form y |};
            w_allow := w_allow w; w_disp := w_disp w; w_pact := w_pact w; w_scan := w_scan w; w_meta := w_meta (frozen w m); w_props := w_props (frozen w m);
            w_value := w_value (frozen w m); w_put := w_put w; w_process := w_process w; w_alarm_name := w_alarm_name w |}).
      pose proof (fine_read_field fp w0 Am x (pv_field c ch)) as F.
      assert (Wi : wired1 (pv_field c ch)) by (unfold wired1; change (ftype (pv_field c ch)) with MScalar; exists c; split; [reflexivity|split; assumption]).
      specialize (F Wi {| s_acts := []; s_val := [] |}).
      change (read_field fp w0 x (pv_field c ch)) with (ioc_get fp (frozen w m) MScalar None None 0 x ch (Some c) []) in F.
      rewrite H in F. destruct (F _ _ eq_refl) as (_ & _ & _ & _ & X). exact X. }
    unfold with_lock in St. rewrite H in St. cbn [s_acts s_val] in St.
    set (D := [ALock [ch_record c]] ++ d1 ++ [AUnlock [ch_record c]]).
    assert (ED : ((h ++ [ALock [ch_record c]]) ++ d1) ++ [AUnlock [ch_record c]] = h ++ D) by (unfold D; rewrite <- !app_assoc; reflexivity).
    rewrite ED in St.
    assert (Sh : pv_event_at fp w c ch hist h D e a).
    { exists [ALock [ch_record c]], (d1 ++ [AUnlock [ch_record c]]). split; [reflexivity|]. intros s0. fold x. fold m. rewrite H.
      eexists. split; reflexivity. }
    set (s1 := if hv && hp then {| ss_value := hv; ss_prop := hp; ss_cur := [] |} else {| ss_value := hv; ss_prop := hp; ss_cur := ss_cur s ++ a |}).
    set (o1 := if hv && hp then Some (ss_cur s ++ a) else None).
    assert (St' : single_step fp w c ch e h s = (h ++ D, EOk (s1, o1))) by (rewrite St; unfold s1, o1; destruct (hv && hp); reflexivity).
    destruct (IH (h ++ D) s1) as (d2 & s' & us & ps & Run & C & F2 & Fv & Fp & U1 & U2).
    assert (V1 : ss_value s1 = hv) by (unfold s1; destruct (hv && hp); reflexivity).
    assert (P1 : ss_prop s1 = hp) by (unfold s1; destruct (hv && hp); reflexivity).
    exists (D ++ d2), s', (cons_posted o1 us), (a :: ps). split; [|split; [|split; [|split; [|split; [|split]]]]].
    + cbn [single_run]. rewrite St', Run, <- app_assoc. reflexivity.
    + rewrite concat_posted, <- app_assoc, C. unfold o1, s1. destruct (hv && hp); cbn [posted ss_cur app concat]; rewrite <- ?app_assoc; reflexivity.
    + constructor.
      * destruct Sh as (pre & po & -> & Sh). exists pre, (po ++ d2). rewrite <- app_assoc. auto.
      * clear - F2. induction F2 as [|e' p l ps (pre & po & -> & Sh) F IH]; constructor; [|exact IH].
        exists (D ++ pre), po. rewrite app_assoc. split; [reflexivity|]. rewrite <- app_assoc in Sh. exact Sh.
    + rewrite Fv, V1. unfold hv. destruct e; cbn [existsb]; [rewrite orb_true_r; reflexivity|reflexivity].
    + rewrite Fp, P1. unfold hp. destruct e; cbn [existsb]; [reflexivity|rewrite orb_true_r; reflexivity].
    + intros Nu. unfold o1 in Nu. destruct (hv && hp) eqn:Eb.
      * apply andb_prop in Eb. destruct Eb as (Eb1 & Eb2). rewrite Fv, Fp, V1, P1, Eb1, Eb2. auto.
      * apply U1. exact Nu.
    + intros _ Tv Tp. destruct l as [|e2 l].
      * cbn [existsb] in Fv, Fp. rewrite orb_false_r in Fv, Fp. rewrite Fv, V1 in Tv. rewrite Fp, P1 in Tp. unfold o1. rewrite Tv, Tp. cbn [andb cons_posted].
        split; [discriminate|]. cbn [single_run] in Run. inversion Run; subst. unfold s1. rewrite Tv, Tp. reflexivity.
      * destruct (U2 ltac:(discriminate) Tv Tp) as (A & B). split; [|exact B]. unfold o1. destruct (hv && hp); [discriminate|exact A].
Qed.
