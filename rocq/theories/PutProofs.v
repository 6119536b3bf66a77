(** What PUTs which succeed call. *)
From Coq Require Import String ZArith List Bool Lia.
From Verif Require Import Base BaseProofs CopyModel GroupModel OpsModel OpsSpec OpsProofs OpsProofs2 OpsProofs3 OpsProofs4 OpsProofs12 PutSpec.
Import ListNotations.
Local Open Scope Z_scope.

Definition good {A} (x : op A) (Q : list act -> list act -> A -> Prop) : Prop :=
  forall s s' a, x s = (s', EOk a) -> exists d, s_acts s' = s_acts s ++ d /\ Q (s_acts s) d a.
Lemma good_post {A} (x : op A) Q (Q' : list act -> list act -> A -> Prop) :
  post x Q -> (forall h d v a, Q h d v (EOk a) -> Q' h d a) -> good x Q'.
Proof. intros P I s s' a E. destruct (P _ _ _ E) as (d & v & E1 & _ & H). exists d. split; [exact E1|]. eapply I, H. Qed.
Lemma good_bind {A B} (x : op A) (k : A -> op B) Q1 (Q2 : A -> list act -> list act -> B -> Prop) (Q : list act -> list act -> B -> Prop) :
  good x Q1 -> (forall a, good (k a) (Q2 a)) ->
  (forall h d1 a d2 b, Q1 h d1 a -> Q2 a (h ++ d1) d2 b -> Q h (d1 ++ d2) b) -> good (bind x k) Q.
Proof.
  intros Hx Hk H s s' b E. unfold bind in E. destruct (x s) as (s1 & [a | e |]) eqn:E1; try discriminate.
  destruct (Hx _ _ _ E1) as (d1 & A1 & A2). destruct (Hk a _ _ _ E) as (d2 & B1 & B2).
  exists (d1 ++ d2). split; [rewrite B1, A1, app_assoc; reflexivity|]. apply (H _ _ a); [exact A2|]. rewrite <- A1. exact B2.
Qed.
Lemma good_ret {A} (a : A) (Q : list act -> list act -> A -> Prop) : (forall h, Q h [] a) -> good (ret a) Q.
Proof. intros H s s' b E. inversion E; subst. exists []. rewrite app_nil_r. auto. Qed.
Lemma good_throw {A} e (Q : list act -> list act -> A -> Prop) : good (throw e) Q.
Proof. intros s s' b E. discriminate. Qed.
Lemma good_lock {A} rs (x : op A) Q1 (Q : list act -> list act -> A -> Prop) :
  good x Q1 -> (forall h d a, Q1 (h ++ [ALock rs]) d a -> Q h (ALock rs :: d ++ [AUnlock rs]) a) -> good (with_lock rs x) Q.
Proof.
  intros Hx H s s' a E. unfold with_lock in E. destruct (x _) as (s1 & r) eqn:E1. inversion E; subst.
  destruct (Hx _ _ _ E1) as (d & A1 & A2). cbn [s_acts] in *. exists (ALock rs :: d ++ [AUnlock rs]).
  split; [rewrite A1, <- !app_assoc; reflexivity|]. apply H, A2.
Qed.

Definition due_b (w : world) (h : list act) (c : chan) (ch : str) (force : tri) : bool :=
  ca_proc (w_attr w ch) || match force with On => true | _ => false end
  || ca_passive (w_attr w ch) && w_scan w h (ch_record c) && match force with Unset => true | _ => false end.
Lemma due_iff w h c ch force : due_b w h c ch force = true <-> due w h c ch force.
Proof.
  unfold due_b, due. rewrite !orb_true_iff, !andb_true_iff. destruct force; intuition congruence.
Qed.
Lemma good_processing w c ch force : good (post_processing w c ch force) (fun h d _ => processing w h c ch force d).
Proof.
  intros s s' a E. unfold post_processing, bind, ask in E. cbn in E. fold (due_b w (s_acts s) c ch force) in E.
  destruct (due_b w (s_acts s) c ch force) eqn:D.
  - assert (P : forall x, x = (if w_pact w (s_acts s) (ch_record c) then AReprocess (ch_record c) else AProcess (ch_record c)) -> processing w (s_acts s) c ch force [x]).
    { intros x ->. split; [intros N; exfalso; apply N, due_iff, D|reflexivity]. }
    destruct (w_pact w (s_acts s) (ch_record c)); inversion E; subst.
    + eexists. split; [reflexivity|]. apply P. reflexivity.
    + eexists. split; [reflexivity|]. apply P. reflexivity.
  - inversion E; subst. exists []. rewrite app_nil_r. split; [reflexivity|].
    split; [reflexivity|]. intros H. apply due_iff in H. congruence.
Qed.

Lemma good_ioc fp w t cval c ch v node :
  good (ioc_put fp w t cval c ch v node)
    (fun h d _ => (d = [] \/ exists x, d = [AWrite ch x] /\ wrote c (put_content t cval v node) x) /\
       ((exists x, d = [AWrite ch x]) \/ match t with MMeta | MProc | MStructure => True | _ => no_array (put_content t cval v node) end)).
Proof. eapply good_post; [apply ioc_put_post|]. intros h d a u (_ & D & O). destruct u. exact (conj D (O eq_refl)). Qed.
Lemma good_field fp w v f s force : good (put_field fp w v f s force) (fun h d _ => field_calls w v force h f d).
Proof.
  unfold put_field. fold (marked v f). fold (is_proc f). unfold field_calls.
  destruct (cf_chan f) as [c|] eqn:Ec.
  2: { destruct (ftype f); try (apply good_ret; reflexivity). intros st s' a E. discriminate. }
  assert (W : good (if marked v f
           then seq (field_pre_processing w s) (ioc_put fp w (ftype f) (fc_const (cf_conf f)) c (chan_name f) v (node_of f))
           else ret tt)
      (fun h d _ => (d = [] \/ (put_to v f /\ exists x, d = [AWrite (chan_name f) x])) /\
         (put_to v f -> carries (ftype f) -> d <> [] \/ no_array (content v f)))).
  { destruct (marked v f) eqn:M.
    - eapply good_bind.
      + eapply (good_post _ _ (fun _ d _ => d = [])); [apply field_pre_post|]. intros h d a u H. apply H.
      + intros u. exact (good_ioc fp w (ftype f) (fc_const (cf_conf f)) c (chan_name f) v (node_of f)).
      + cbn beta. intros h d1 u d2 u' -> (D & O). cbn [app]. apply marked_iff in M. split.
        * destruct D as [-> | (x & -> & _)]; [left; reflexivity|right]. split; [exact M|exists x; reflexivity].
        * intros _ Hc. destruct O as [(x & ->) | N]; [left; discriminate|right].
          rewrite <- (content_ok v f Hc). destruct (ftype f); destruct Hc; exact N.
    - apply good_ret. intros h. split; [left; reflexivity|]. intros P. apply marked_iff in P. congruence. }
  eapply good_bind; [exact W| |].
  - intros u. instantiate (1 := fun _ h d b => if marked v f || is_proc f then processing w h c (chan_name f) force d else d = []).
    cbn beta. destruct (marked v f || is_proc f).
    + eapply good_bind; [apply good_processing|intros u1; apply (good_ret true (fun h d _ => d = [])); reflexivity|].
      cbn. intros h d1 _ d2 b P ->. rewrite app_nil_r. exact P.
    + apply good_ret. reflexivity.
  - cbn beta. intros h d1 u d2 b (D & O) P.
    assert (Pr : is_proc f = true <-> ftype f = MProc) by (unfold is_proc; destruct (ftype f); split; congruence).
    split.
    + intros K. assert (B : marked v f || is_proc f = true).
      { apply orb_true_iff. destruct K as [K | K]; [left; apply marked_iff, K|right; apply Pr, K]. }
      rewrite B in P. exists d1, d2. auto.
    + intros N1 N2. assert (B : marked v f || is_proc f = false).
      { apply orb_false_iff. split; [destruct (marked v f) eqn:M; [exfalso; apply N1, marked_iff, M|reflexivity]|].
        apply not_true_iff_false. intros M. apply N2, Pr, M. }
      rewrite B in P. subst. destruct D as [-> | (K & _)]; [reflexivity|contradiction].
Qed.
Lemma good_all fp w v clients force l : forall i did,
  good (put_all fp w v clients force l i did) (fun h d _ => in_turn w v force h l d).
Proof.
  induction l as [|f l IH]; intros i did; cbn [put_all in_turn]; [apply good_ret; reflexivity|].
  eapply good_bind; [apply good_field|intros b; apply IH|]. cbn beta. intros h d1 b d2 b' F R. exists d1, d2. auto.
Qed.
Lemma good_each fp w v clients force l : forall i did,
  good (put_each fp w v clients force l i did) (fun h d _ => in_turn_locked w v force h l d).
Proof.
  induction l as [|f l IH]; intros i did; cbn [put_each in_turn_locked]; [apply good_ret; reflexivity|].
  destruct (cf_chan f) as [c|] eqn:Ec; [|apply IH].
  eapply good_bind; [eapply good_lock; [apply good_field|]|intros b; apply IH|].
  - intros h d b F. instantiate (1 := fun h d _ => exists m, d = ALock [ch_record c] :: m ++ [AUnlock [ch_record c]] /\ field_calls w v force (h ++ [ALock [ch_record c]]) f m).
    exists d. auto.
  - cbn beta. intros h d1 b d2 b' (m & -> & F) R. exists m, d2. cbv zeta. auto.
Qed.
Lemma good_quiet {A} (x : op A) : quiet x -> good x (fun _ d _ => d = []).
Proof.
  intros Q. eapply good_post; [exact Q|]. cbn. tauto.
Qed.
Lemma good_group fp w g opt cr force v :
  good (put_group fp w g opt cr force v)
    (fun h d _ => if atomic_of g opt
                  then exists m, d = ALock (records_of (g_fields g)) :: m ++ [AUnlock (records_of (g_fields g))] /\
                         in_turn w v force (h ++ [ALock (records_of (g_fields g))]) (g_fields g) m
                  else in_turn_locked w v force h (g_fields g) d).
Proof.
  unfold put_group. cbv zeta.
  eapply good_bind; [apply good_quiet, quiet_before| |].
  - intros u. eapply good_bind.
    + instantiate (1 := fun h d _ => if atomic_of g opt
                  then exists m, d = ALock (records_of (g_fields g)) :: m ++ [AUnlock (records_of (g_fields g))] /\
                         in_turn w v force (h ++ [ALock (records_of (g_fields g))]) (g_fields g) m
                  else in_turn_locked w v force h (g_fields g) d).
      destruct (atomic_of g opt); [|apply good_each].
      eapply good_lock; [apply good_all|]. cbn beta. intros h d b R. exists d. auto.
    + intros b. instantiate (1 := fun _ _ d _ => d = []). destruct (negb b && any_sent v); [apply good_throw|apply good_ret; reflexivity].
    + cbn beta. intros h d1 b d2 u' P ->. rewrite app_nil_r. exact P.
  - cbn beta. intros h d1 u d2 u' -> P. rewrite app_nil_r in P. exact P.
Qed.

Lemma good_single fp w c ch cr o notify v :
  single_wait o = false -> ca_link (w_attr w ch) = false ->
  good (single_put fp w c ch cr o notify v)
    (fun h d _ => exists ws p, d = ALock [ch_record c] :: ws ++ p ++ [AUnlock [ch_record c]] /\
       (ws = [] \/ exists x, ws = [AWrite ch x]) /\ (ws <> [] \/ no_array (put_content MScalar None v [])) /\
       processing w (h ++ [ALock [ch_record c]] ++ ws) c ch (sc_force o) p).
Proof.
  intros Hw Hl. unfold single_put. rewrite Hw, Hl.
  eapply good_bind; [eapply (good_post _ _ (fun _ d _ => d = [])); [apply pre_post|intros h d a u H; apply H]| |].
  - intros u. eapply good_bind; [eapply (good_post _ _ (fun _ d _ => d = [])); [apply field_pre_post|intros h d a u' H; apply H]| |].
    + intros u'. eapply good_lock; [eapply good_bind; [apply good_ioc|intros u1; apply good_processing|]|].
      * cbn beta. intros h d1 a d2 b D P. instantiate (1 := fun h d _ => exists ws p, d = ws ++ p /\
           (ws = [] \/ exists x, ws = [AWrite ch x]) /\ (ws <> [] \/ no_array (put_content MScalar None v [])) /\
           processing w (h ++ ws) c ch (sc_force o) p).
        exists d1, d2. split; [reflexivity|]. destruct D as (D & O). split; [|split; [|exact P]].
        -- destruct D as [D | (x & D & _)]; [left; exact D|right; exists x; exact D].
        -- destruct O as [(x & ->) | N]; [left; discriminate|right; exact N].
      * cbn beta. intros h d b (ws & p & -> & A & B & C).
        instantiate (1 := fun u' h d _ => exists ws p, d = ALock [ch_record c] :: ws ++ p ++ [AUnlock [ch_record c]] /\
       (ws = [] \/ exists x, ws = [AWrite ch x]) /\ (ws <> [] \/ no_array (put_content MScalar None v [])) /\
       processing w (h ++ [ALock [ch_record c]] ++ ws) c ch (sc_force o) p).
        exists ws, p. rewrite <- app_assoc. rewrite <- app_assoc in C. auto.
    + cbn beta. intros h d1 a d2 b -> H. rewrite app_nil_r in H.
      instantiate (1 := fun u h d _ => exists ws p, d = ALock [ch_record c] :: ws ++ p ++ [AUnlock [ch_record c]] /\
       (ws = [] \/ exists x, ws = [AWrite ch x]) /\ (ws <> [] \/ no_array (put_content MScalar None v [])) /\
       processing w (h ++ [ALock [ch_record c]] ++ ws) c ch (sc_force o) p). exact H.
  - cbn beta. intros h d1 a d2 b -> H. rewrite app_nil_r in H. exact H.
Qed.

(** no processing *)
Lemma not_due_off w h c ch : ca_proc (w_attr w ch) = false -> ~ due w h c ch Off.
Proof. intros H [K | [K | (K & _)]]; congruence. Qed.
Lemma field_off w v h f d :
  (forall c, cf_chan f = Some c -> ca_proc (w_attr w (chan_name f)) = false) ->
  field_calls w v Off h f d -> Forall (fun a => ~ processes a) d.
Proof.
  intros Hp H. unfold field_calls in H. destruct (cf_chan f) as [c|]; [|subst; constructor].
  specialize (Hp c eq_refl). destruct H as (H1 & H2).
  destruct (marked v f || is_proc f) eqn:B.
  - assert (K : put_to v f \/ ftype f = MProc).
    { apply orb_true_iff in B. destruct B as [B | B]; [left; apply marked_iff, B|right]. unfold is_proc in B. destruct (ftype f); congruence. }
    destruct (H1 K) as (ws & p & -> & W & _ & P & _).
    rewrite (P (not_due_off _ _ _ _ Hp)), app_nil_r.
    destruct W as [-> | (_ & x & ->)]; [constructor|]. constructor; [intros []|constructor].
  - apply orb_false_iff in B. destruct B as (B1 & B2).
    rewrite H2; [constructor| |].
    + intros K. apply marked_iff in K. congruence.
    + intros K. unfold is_proc in B2. rewrite K in B2. discriminate.
Qed.
Lemma turn_off w v l : forall h d,
  (forall f c, In f l -> cf_chan f = Some c -> ca_proc (w_attr w (chan_name f)) = false) ->
  in_turn w v Off h l d -> Forall (fun a => ~ processes a) d.
Proof.
  induction l as [|f l IH]; intros h d Hp H; cbn [in_turn] in H; [subst; constructor|].
  destruct H as (d1 & d2 & -> & F & R). apply Forall_app. split.
  - eapply field_off; [|exact F]. intros c. apply Hp. left. reflexivity.
  - eapply IH; [|exact R]. intros g c I. apply Hp. right. exact I.
Qed.
Lemma turn_locked_off w v l : forall h d,
  (forall f c, In f l -> cf_chan f = Some c -> ca_proc (w_attr w (chan_name f)) = false) ->
  in_turn_locked w v Off h l d -> Forall (fun a => ~ processes a) d.
Proof.
  induction l as [|f l IH]; intros h d Hp H; cbn [in_turn_locked] in H; [subst; constructor|].
  assert (Hp' : forall g c, In g l -> cf_chan g = Some c -> ca_proc (w_attr w (chan_name g)) = false) by (intros g c I; apply Hp; right; exact I).
  destruct (cf_chan f) as [c|] eqn:Ec; [|apply (IH _ _ Hp' H)].
  destruct H as (d1 & d2 & H). cbv zeta in H. destruct H as (-> & F & R).
  apply Forall_app. split; [|apply (IH _ _ Hp' R)].
  constructor; [intros []|]. apply Forall_app. split.
  - eapply field_off; [|exact F]. intros c'. apply Hp. left. reflexivity.
  - constructor; [intros []|constructor].
Qed.
