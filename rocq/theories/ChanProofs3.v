(** Operations of channels. *)
From Coq Require Import ZArith List Bool Arith Lia.
From Verif Require Import Base BaseProofs ChanModel ChanSpec ChanProofs ChanProofs2.
Import ListNotations.

(** [e]: a channel which may have operations to start *)
Record coreBe (e : option nat) (x : ctx) : Prop := {
  b_ops : forall n k o, x_conns x n = Some k -> (In o (n_ops k) <-> exists i c, x_chans x i = Some c /\ c_conn c = Some n /\ In o (c_ops c));
  b_act : forall i c, x_chans x i = Some c -> c_ops c <> [] -> c_state c = Active;
  b_ref : forall i c o, x_chans x i = Some c -> In o (c_ops c) -> In o (c_refs c);
  b_own : forall i j c d o, x_chans x i = Some c -> x_chans x j = Some d -> In o (c_refs c) -> In o (c_refs d) -> i = j;
  b_lt : forall i c o, x_chans x i = Some c -> In o (c_refs c) \/ In o (c_pending c) -> o < x_no x;
  b_disj : forall i c o, x_chans x i = Some c -> In o (c_pending c) -> In o (c_ops c) -> False;
  b_wait : forall i c, e <> Some i -> x_chans x i = Some c -> c_state c = Active -> c_pending c = [];
  b_nd : forall i c, x_chans x i = Some c -> NoDup (c_pending c) /\ NoDup (c_ops c) /\ NoDup (c_refs c);
  b_all : forall o, life_of o (x_out x) <> None;
  b_new : forall o, x_no x <= o -> life_of o (x_out x) = Some Waiting;
  b_life : forall i c o, x_chans x i = Some c -> In o (c_refs c) ->
     (In o (c_ops c) /\ life_of o (x_out x) = Some Running) \/
     (~ In o (c_ops c) /\ In o (c_pending c) /\ life_of o (x_out x) = Some Waiting) \/
     (~ In o (c_ops c) /\ ~ In o (c_pending c) /\ life_of o (x_out x) = Some Ended)
}.
Notation coreB := (coreBe None).
Definition of_op (o : nat) (e : out) : bool :=
  match e with OStart o' _ | OLost o' | OFail o' | OEnd o' => Nat.eqb o o' | _ => false end.
Lemma live_other o s e : of_op o e = false -> live o s e = s.
Proof. destruct e; cbn; try reflexivity; intros ->; reflexivity. Qed.
Lemma life_app o l m : life_of o (l ++ m) = fold_left (live o) m (life_of o l).
Proof. unfold life_of. apply fold_left_app. Qed.
Lemma life_quiet o l m : (forall e, In e m -> of_op o e = false) -> life_of o (l ++ m) = life_of o l.
Proof.
  intros H. rewrite life_app. generalize (life_of o l). induction m as [|e m IH]; intros s; cbn [fold_left]; [reflexivity|].
  rewrite live_other by (apply H; left; reflexivity). apply IH. intros f I. apply H. right. exact I.
Qed.
Lemma life_starts o n l m : NoDup m -> life_of o (l ++ map (fun p => OStart p n) m) =
  if is_in o m then match life_of o l with Some Waiting => Some Running | _ => None end else life_of o l.
Proof.
  intros Nd. rewrite life_app. generalize (life_of o l). induction Nd as [|a m Ha Nd IH]; intros s; cbn [map fold_left]; [reflexivity|].
  rewrite IH. unfold is_in at 2. cbn [existsb]. fold (is_in o m). cbn [live].
  destruct (Nat.eqb_spec o a) as [-> | N]; cbn [orb].
  - destruct (is_in a m) eqn:I; [apply is_in_iff in I; contradiction|reflexivity].
  - destruct (is_in o m); reflexivity.
Qed.
Lemma life_losts o again l m : NoDup m -> life_of o (l ++ map (fun p => if again p : bool then OLost p else OFail p) m) =
  if is_in o m then match life_of o l with Some Running => Some (if again o then Waiting else Ended) | _ => None end else life_of o l.
Proof.
  intros Nd. rewrite life_app. generalize (life_of o l). induction Nd as [|a m Ha Nd IH]; intros s; cbn [map fold_left]; [reflexivity|].
  rewrite IH. unfold is_in at 2. cbn [existsb]. fold (is_in o m).
  destruct (Nat.eqb_spec o a) as [-> | N]; cbn [orb].
  - destruct (is_in a m) eqn:I; [apply is_in_iff in I; contradiction|]. destruct (again a); cbn [live]; rewrite Nat.eqb_refl; reflexivity.
  - replace (live o s (if again a then OLost a else OFail a)) with s; [destruct (is_in o m); reflexivity|].
    destruct (again a); cbn [live]; destruct (Nat.eqb_spec o a); congruence.
Qed.

Definition quiet (l : list out) : Prop := forall e o, In e l -> of_op o e = false.
Lemma coreB_same e x x' :
  coreBe e x -> x_no x' = x_no x -> (exists l, x_out x' = x_out x ++ l /\ quiet l) ->
  (forall i c', x_chans x' i = Some c' -> exists c, x_chans x i = Some c /\ c_ops c' = c_ops c /\ c_pending c' = c_pending c /\ c_refs c' = c_refs c /\
      (c_ops c <> [] -> c_conn c' = c_conn c /\ c_state c' = c_state c) /\ (e <> Some i -> c_state c' = Active -> c_state c = Active)) ->
  (forall i c, x_chans x i = Some c -> c_ops c <> [] -> exists c', x_chans x' i = Some c' /\ c_ops c' = c_ops c /\ c_conn c' = c_conn c) ->
  (forall n k', x_conns x' n = Some k' -> (exists k, x_conns x n = Some k /\ n_ops k' = n_ops k) \/
      (n_ops k' = [] /\ forall i c, x_chans x i = Some c -> c_conn c <> Some n)) ->
  coreBe e x'.
Proof.
  intros B En (l & El & Hq) H1 H2 H3.
  assert (L : forall o, life_of o (x_out x') = life_of o (x_out x)) by (intros o; rewrite El; apply life_quiet; intros f I; apply Hq, I).
  constructor.
  - intros n k' o Hk. destruct (H3 _ _ Hk) as [(k & Ek & Eo) | (Eo & Hn)].
    + rewrite Eo, (b_ops _ _ B _ _ _ Ek). split.
      * intros (i & c & Ec & En' & I). destruct (H2 i c Ec) as (c' & Ec' & E1 & E2); [intros Z; rewrite Z in I; destruct I|]. exists i, c'. rewrite E1, E2. auto.
      * intros (i & c' & Ec' & En' & I). destruct (H1 i c' Ec') as (c & Ec & E1 & E2 & E3 & E4 & _). exists i, c. rewrite E1 in I.
        destruct E4 as (E4 & _); [intros Z; rewrite Z in I; destruct I|]. split; [exact Ec|split; [congruence|exact I]].
    + rewrite Eo. split; [intros []|]. intros (i & c' & Ec' & En' & I). destruct (H1 i c' Ec') as (c & Ec & E1 & E2 & E3 & E4 & _). rewrite E1 in I.
      destruct E4 as (E4 & _); [intros Z; rewrite Z in I; destruct I|]. apply (Hn i c Ec). congruence.
  - intros i c' Ec' N. destruct (H1 i c' Ec') as (c & Ec & E1 & E2 & E3 & E4 & _). rewrite E1 in N. destruct (E4 N) as (_ & ->). apply (b_act _ _ B _ _ Ec N).
  - intros i c' o Ec' I. destruct (H1 i c' Ec') as (c & Ec & E1 & E2 & E3 & _). rewrite E1 in I. rewrite E3. apply (b_ref _ _ B _ _ _ Ec I).
  - intros i j c' d' o Ec' Ed' I J. destruct (H1 i c' Ec') as (c & Ec & E1 & E2 & E3 & _). destruct (H1 j d' Ed') as (d & Ed & F1 & F2 & F3 & _).
    rewrite E3 in I. rewrite F3 in J. apply (b_own _ _ B _ _ _ _ _ Ec Ed I J).
  - intros i c' o Ec'. destruct (H1 i c' Ec') as (c & Ec & E1 & E2 & E3 & _). rewrite E2, E3, En. apply (b_lt _ _ B _ _ _ Ec).
  - intros i c' o Ec'. destruct (H1 i c' Ec') as (c & Ec & E1 & E2 & E3 & _). rewrite E1, E2. apply (b_disj _ _ B _ _ _ Ec).
  - intros i c' Ne Ec' Ha. destruct (H1 i c' Ec') as (c & Ec & E1 & E2 & E3 & E4 & E5). rewrite E2. apply (b_wait _ _ B _ _ Ne Ec (E5 Ne Ha)).
  - intros i c' Ec'. destruct (H1 i c' Ec') as (c & Ec & E1 & E2 & E3 & _). rewrite E1, E2, E3. apply (b_nd _ _ B _ _ Ec).
  - intros o. rewrite L. apply (b_all _ _ B).
  - intros o. rewrite L, En. apply (b_new _ _ B).
  - intros i c' o Ec'. destruct (H1 i c' Ec') as (c & Ec & E1 & E2 & E3 & _). rewrite E1, E2, E3, L. apply (b_life _ _ B _ _ _ Ec).
Qed.
Lemma quiet_nil : quiet [].
Proof. intros e o []. Qed.
Lemma coreB_tcp e x n k k' : coreBe e x -> x_conns x n = Some k -> n_ops k' = n_ops k -> coreBe e (set_conn n (Some k') x).
Proof.
  intros B Ek Eo. apply (coreB_same e x); auto.
  - exists []. rewrite app_nil_r. split; [reflexivity|apply quiet_nil].
  - intros i c' E. exists c'. cbn in E. split; [exact E|]. tauto.
  - intros i c E _. exists c. auto.
  - intros m q H. left. cbn in H. apply upd_conn_cases in H. destruct H as [(-> & ->) | (N & H)]; eauto.
Qed.
Lemma coreB_chan e x i c c' : coreBe e x -> x_chans x i = Some c -> c_ops c' = c_ops c -> c_pending c' = c_pending c -> c_refs c' = c_refs c ->
  (c_ops c <> [] -> c_conn c' = c_conn c /\ c_state c' = c_state c) -> (e <> Some i -> c_state c' = Active -> c_state c = Active) -> coreBe e (set_chan i (Some c') x).
Proof.
  intros B Ec E1 E2 E3 E4 E5. apply (coreB_same e x); auto.
  - exists []. rewrite app_nil_r. split; [reflexivity|apply quiet_nil].
  - intros j d H. cbn in H. apply upd_conn_cases in H. destruct H as [(-> & ->) | (N & H)]; [exists c; auto 8|exists d; tauto].
  - intros j d H N. cbn. unfold upd. destruct (Nat.eqb_spec j i) as [-> | Nj].
    + exists c'. rewrite Ec in H. inversion H; subst. destruct (E4 N). auto.
    + eauto.
  - intros m q H. left. cbn in H. eauto.
Qed.
Lemma coreB_emit e x l : coreBe e x -> quiet l -> coreBe e (emit l x).
Proof.
  intros B Q. apply (coreB_same e x); auto.
  - exists l. auto.
  - intros i c E. exists c. cbn in E. tauto.
  - intros i c E _. exists c. auto.
  - intros m q H. left. exists q. auto.
Qed.
(** fields which operations do not depend on *)
Lemma coreB_rest e x x' : coreBe e x -> x_no x' = x_no x -> x_out x' = x_out x -> x_chans x' = x_chans x -> x_conns x' = x_conns x -> coreBe e x'.
Proof.
  intros B E1 E2 E3 E4. apply (coreB_same e x); auto.
  - exists []. rewrite app_nil_r. split; [exact E2|apply quiet_nil].
  - intros i c E. exists c. rewrite E3 in E. tauto.
  - intros i c E _. exists c. rewrite E3. auto.
  - intros m q H. left. exists q. rewrite E4 in H. auto.
Qed.
Lemma plain_quiet l : Forall plain l -> quiet l.
Proof. intros H e o I. rewrite Forall_forall in H. specialize (H e I). destruct e; cbn in *; tauto. Qed.

Lemma filter_none {A} (p : A -> bool) l : (forall a, In a l -> p a = false) -> filter p l = [].
Proof. induction l as [|a l IH]; intros H; cbn; [reflexivity|]. rewrite (H a (or_introl eq_refl)). apply IH. intros b I. apply H. right. exact I. Qed.
Lemma nodup_f {A} (p : A -> bool) l : NoDup l -> NoDup (filter p l).
Proof. apply NoDup_filter. Qed.
Lemma nodup_both {A} (l m : list A) : NoDup l -> NoDup m -> (forall a, In a l -> In a m -> False) -> NoDup (l ++ m).
Proof.
  induction 1 as [|a l Ha Nd IH]; intros Nm H; cbn; [exact Nm|]. constructor.
  - rewrite in_app_iff. intros [I | I]; [contradiction|]. apply (H a (or_introl eq_refl) I).
  - apply IH; [exact Nm|]. intros b I J. apply (H b (or_intror I) J).
Qed.
Lemma conn_of_some x i c n : coreA x -> x_chans x i = Some c -> c_conn c = Some n -> exists k, x_conns x n = Some k /\ conn_of x c = Some (n, k).
Proof.
  intros C Ec En. destruct (a_live _ C i n (c_state c) (c_sid c) (place_i x i c n Ec En)) as (k & Ek). exists k. split; [exact Ek|].
  unfold conn_of. rewrite En, Ek. reflexivity.
Qed.
Lemma downs_quiet c : quiet (downs c).
Proof. intros e o I. unfold downs in I. apply in_flat_map in I. destruct I as ((w, b) & _ & I). cbn in I. destruct b; [destruct I as [<- | []]; reflexivity|destruct I]. Qed.
Lemma ups_quiet c : quiet (ups c).
Proof. intros e o I. unfold ups in I. apply in_flat_map in I. destruct I as ((w, b) & _ & I). cbn in I. destruct b; [destruct I|destruct I as [<- | []]; reflexivity]. Qed.
Lemma sends_quiet i c k : quiet (sends i c k).
Proof. intros e o I. unfold sends in I. destruct k as [(n, k)|]; [|destruct I]. destruct (c_state c); try (destruct I; fail); (destruct (n_bev k); [destruct I as [<- | []]; reflexivity|destruct I]). Qed.
Lemma alive_ops e x i c : coreBe e x -> x_chans x i = Some c -> alive c = c_ops c.
Proof.
  intros B Ec. unfold alive. pose proof (b_ref _ _ B i c) as H. assert (G : forall o, In o (c_ops c) -> is_in o (c_refs c) = true) by (intros o I; apply is_in_iff, (H o Ec I)).
  clear - G. induction (c_ops c) as [|a l IH]; cbn; [reflexivity|]. rewrite (G a (or_introl eq_refl)). f_equal. apply IH. intros o I. apply G. right. exact I.
Qed.
Lemma coreB_disc x again i c : coreA x -> coreB x -> x_chans x i = Some c -> coreB (disc again i c (conn_of x c) x).
Proof.
  intros A B Ec. pose proof (alive_ops None x i c B Ec) as Al.
  destruct (b_nd _ _ B _ _ Ec) as (N1 & N2 & N3).
  assert (Hlife : forall o, life_of o (x_out (disc again i c (conn_of x c) x)) =
     if is_in o (c_ops c) then match life_of o (x_out x) with Some Running => Some (if again o then Waiting else Ended) | _ => None end else life_of o (x_out x)).
  { intros o. unfold disc. cbn [emit x_out].
    replace (x_out (set_chan i (Some (gone again c)) match conn_of x c with Some (n, k) => set_conn n (Some (left_ i c k)) x | None => x end)) with (x_out x)
      by (destruct (conn_of x c) as [(n, k)|]; reflexivity).
    rewrite !app_assoc. unfold losts. rewrite Al, life_losts by exact N2. rewrite <- app_assoc.
    rewrite (life_quiet o (x_out x)); [reflexivity|]. intros e I. apply in_app_iff in I. destruct I as [I | I]; [apply (sends_quiet _ _ _ _ _ I)|apply (downs_quiet _ _ _ I)]. }
  assert (Hch : forall j c', x_chans (disc again i c (conn_of x c) x) j = Some c' -> (j = i /\ c' = gone again c) \/ (j <> i /\ x_chans x j = Some c')).
  { intros j c' H. unfold disc in H. cbn in H. apply upd_conn_cases in H. destruct H as [H | (N & H)]; [left; exact H|right; split; [exact N|]].
    destruct (conn_of x c) as [(n, k)|]; exact H. }
  assert (Run : forall o, In o (c_ops c) -> life_of o (x_out x) = Some Running).
  { intros o I. destruct (b_life _ _ B _ _ _ Ec (b_ref _ _ B _ _ _ Ec I)) as [(_ & H) | [(H & _) | (H & _)]]; [exact H|contradiction|contradiction]. }
  assert (Rn : forall j c' o, j <> i -> x_chans x j = Some c' -> In o (c_refs c') -> is_in o (c_ops c) = false).
  { intros j c' o N H I. destruct (is_in o (c_ops c)) eqn:E; [|reflexivity]. apply is_in_iff in E. exfalso. apply N. apply (b_own _ _ B _ _ _ _ _ H Ec I (b_ref _ _ B _ _ _ Ec E)). }
  constructor.
  - intros n k' o Hk.
    assert (Hn : exists k, x_conns x n = Some k /\ (In o (n_ops k') <-> In o (n_ops k) /\ ~ (c_conn c = Some n /\ In o (c_ops c)))).
    { unfold disc in Hk. cbn in Hk. unfold conn_of in Hk. destruct (c_conn c) as [m|] eqn:Em.
      - destruct (conn_of_some x i c m A Ec Em) as (k & Ek & _). rewrite Ek in Hk. cbn in Hk. apply upd_conn_cases in Hk.
        destruct Hk as [(-> & ->) | (Nm & Hk)].
        + exists k. split; [exact Ek|]. unfold left_. cbn. rewrite filter_In, negb_true_iff. split.
          * intros (I & F). assert (In o (n_ops k)) by (unfold leave in I; destruct (c_state c); exact I). split; [assumption|]. intros (_ & J). apply is_in_iff in J. congruence.
          * intros (I & F). split; [unfold leave; destruct (c_state c); exact I|]. destruct (is_in o (c_ops c)) eqn:J; [|reflexivity]. apply is_in_iff in J. exfalso. apply F. auto.
        + exists k'. split; [exact Hk|]. split; [|tauto]. intros I. split; [exact I|]. intros (E & _). congruence.
      - exists k'. split; [exact Hk|]. split; [|tauto]. intros I. split; [exact I|]. intros (E & _). discriminate. }
    destruct Hn as (k & Ek & ->). rewrite (b_ops _ _ B _ _ _ Ek). split.
    + intros ((j & d & Ed & En & I) & F). assert (N : j <> i) by (intros ->; rewrite Ec in Ed; inversion Ed; subst; apply F; auto).
      exists j, d. split; [|auto]. unfold disc. cbn. rewrite upd_other by exact N. destruct (conn_of x c) as [(a, b)|]; exact Ed.
    + intros (j & d & Ed & En & I). apply Hch in Ed. destruct Ed as [(-> & ->) | (N & Ed)]; [destruct I|].
      split; [eauto|]. intros (_ & J). apply N. apply (b_own _ _ B _ _ _ _ _ Ed Ec (b_ref _ _ B _ _ _ Ed I) (b_ref _ _ B _ _ _ Ec J)).
  - intros j d Ed. apply Hch in Ed. destruct Ed as [(-> & ->) | (N & Ed)]; [cbn; congruence|apply (b_act _ _ B _ _ Ed)].
  - intros j d o Ed. apply Hch in Ed. destruct Ed as [(-> & ->) | (N & Ed)]; [intros []|apply (b_ref _ _ B _ _ _ Ed)].
  - intros j j' d d' o Ed Ed'. apply Hch in Ed. apply Hch in Ed'.
    destruct Ed as [(-> & ->) | (N & Ed)], Ed' as [(-> & ->) | (N' & Ed')]; cbn; auto; intros I J; eapply (b_own _ _ B); eauto.
  - intros j d o Ed. apply Hch in Ed. replace (x_no (disc again i c (conn_of x c) x)) with (x_no x) by (unfold disc; destruct (conn_of x c) as [(a, b)|]; reflexivity).
    destruct Ed as [(-> & ->) | (N & Ed)]; [|apply (b_lt _ _ B _ _ _ Ed)]. cbn. rewrite in_app_iff, Al, filter_In. intros [I | [I | (I & _)]].
    + apply (b_lt _ _ B _ _ _ Ec). auto.
    + apply (b_lt _ _ B _ _ _ Ec). auto.
    + apply (b_lt _ _ B _ _ _ Ec). left. apply (b_ref _ _ B _ _ _ Ec I).
  - intros j d o Ed. apply Hch in Ed. destruct Ed as [(-> & ->) | (N & Ed)]; [intros _ []|apply (b_disj _ _ B _ _ _ Ed)].
  - intros j d Ne Ed. apply Hch in Ed. destruct Ed as [(-> & ->) | (N & Ed)]; [discriminate|apply (b_wait _ _ B _ _ Ne Ed)].
  - intros j d Ed. apply Hch in Ed. destruct Ed as [(-> & ->) | (N & Ed)]; [|apply (b_nd _ _ B _ _ Ed)]. cbn. split; [|split; [constructor|exact N3]].
    rewrite Al. apply nodup_both; [exact N1|apply nodup_f, N2|]. intros o I J. apply filter_In in J. apply (b_disj _ _ B _ _ _ Ec I). apply J.
  - intros o. rewrite Hlife. destruct (is_in o (c_ops c)) eqn:E; [|apply (b_all _ _ B)]. apply is_in_iff in E. rewrite (Run _ E). discriminate.
  - intros o L. replace (x_no (disc again i c (conn_of x c) x)) with (x_no x) in L by (unfold disc; destruct (conn_of x c) as [(a, b)|]; reflexivity).
    rewrite Hlife. destruct (is_in o (c_ops c)) eqn:E; [|apply (b_new _ _ B), L]. apply is_in_iff in E.
    pose proof (b_lt _ _ B _ _ _ Ec (or_introl (b_ref _ _ B _ _ _ Ec E))). lia.
  - intros j d o Ed. rewrite Hlife. apply Hch in Ed. destruct Ed as [(-> & ->) | (N & Ed)].
    + cbn. intros I. rewrite Al, in_app_iff, filter_In. destruct (is_in o (c_ops c)) eqn:E.
      * apply is_in_iff in E. rewrite (Run _ E). right. destruct (again o) eqn:Ea; [left; auto|right]. split; [tauto|split; [|reflexivity]].
        intros [J | (_ & J)]; [apply (b_disj _ _ B _ _ _ Ec J E)|discriminate].
      * assert (NE : ~ In o (c_ops c)) by (intros K; apply is_in_iff in K; congruence).
        destruct (b_life _ _ B _ _ _ Ec I) as [(H & _) | [(_ & H & H') | (_ & H & H')]]; [contradiction|right; left; auto|right; right].
        split; [tauto|split; [|exact H']]. intros [J | (J & _)]; contradiction.
    + intros I. rewrite (Rn _ _ _ N Ed I). apply (b_life _ _ B _ _ _ Ed I).
Qed.
Lemma coreB_start i x x' : coreA x -> coreBe (Some i) x -> create_operations i x = Some x' -> coreB x'.
Proof.
  intros A B E. unfold create_operations in E. destruct (x_chans x i) as [c|] eqn:Ec; [|discriminate].
  destruct (c_state c) eqn:Es; try (inversion E; subst; clear E; destruct B; constructor; auto; intros j d _ Ed Sd;
     destruct (Nat.eq_dec j i) as [-> | N]; [congruence|]; apply (b_wait0 j d); auto; congruence).
  destruct (b_nd _ _ B _ _ Ec) as (N1 & N2 & N3). set (todo := filter (fun o => is_in o (c_refs c)) (c_pending c)) in *.
  assert (Hlife : forall o, In o (c_refs c) -> In o (c_pending c) -> life_of o (x_out x) = Some Waiting).
  { intros o I J. destruct (b_life _ _ B _ _ _ Ec I) as [(H & _) | [(_ & _ & H) | (_ & H & _)]]; [exfalso; apply (b_disj _ _ B _ _ _ Ec J H)|exact H|contradiction]. }
  assert (It : forall o, In o todo <-> In o (c_pending c) /\ In o (c_refs c)) by (intros o; unfold todo; rewrite filter_In, is_in_iff; tauto).
  assert (Nt : NoDup todo) by apply nodup_f, N1.
  assert (G : x_no x' = x_no x /\ (forall o, life_of o (x_out x') = if is_in o todo then match life_of o (x_out x) with Some Waiting => Some Running | _ => None end else life_of o (x_out x)) /\
    (forall j d, x_chans x' j = Some d -> (j = i /\ d = c_with_ops [] (c_ops c ++ todo) c) \/ (j <> i /\ x_chans x j = Some d)) /\
    x_chans x' i = Some (c_with_ops [] (c_ops c ++ todo) c) /\ (forall j, j <> i -> x_chans x' j = x_chans x j) /\
    (forall n k', x_conns x' n = Some k' -> exists k, x_conns x n = Some k /\ forall o, In o (n_ops k') <-> In o (n_ops k) \/ (c_conn c = Some n /\ In o todo))).
  { destruct todo as [|t l] eqn:Et.
    - inversion E; subst; clear E. split; [reflexivity|split; [reflexivity|split; [|split; [|split]]]].
      + intros j d H. cbn in H. rewrite app_nil_r. apply upd_conn_cases in H. exact H.
      + cbn. rewrite upd_same, app_nil_r. reflexivity.
      + intros j N. cbn. apply upd_other, N.
      + intros n k' H. exists k'. split; [exact H|]. intros o. cbn. tauto.
    - destruct (c_conn c) as [n|] eqn:En; [|discriminate]. destruct (x_conns x n) as [k|] eqn:Ek; [|discriminate]. destruct (n_bev k); [|discriminate].
      inversion E; subst; clear E. split; [reflexivity|split; [|split; [|split; [|split]]]].
      + intros o. cbn [x_out emit set_chan set_conn]. apply (life_starts o n (x_out x) (t :: l)). exact Nt.
      + intros j d H. cbn in H. apply upd_conn_cases in H. exact H.
      + cbn. rewrite upd_same. reflexivity.
      + intros j N. cbn. apply upd_other, N.
      + intros m k' H. cbn [x_conns emit set_chan set_conn] in H. apply upd_conn_cases in H. destruct H as [(-> & ->) | (N & H)].
        * exists k. split; [exact Ek|]. intros o. cbn [n_ops n_with_ops]. rewrite in_app_iff. tauto.
        * exists k'. split; [exact H|]. intros o. split; [tauto|]. intros [I | (I & _)]; [exact I|congruence]. }
  clear E. destruct G as (G1 & G2 & G3 & G4 & G5 & G6).
  constructor.
  - intros n k' o Hk. destruct (G6 _ _ Hk) as (k & Ek & ->). rewrite (b_ops _ _ B _ _ _ Ek). split.
    + intros [(j & d & Ed & En & I) | (En & I)].
      * destruct (Nat.eq_dec j i) as [-> | N].
        { rewrite Ec in Ed. inversion Ed; subst. exists i. eexists. split; [exact G4|]. split; [exact En|]. cbn. apply in_app_iff. auto. }
        exists j, d. rewrite G5 by exact N. auto.
      * exists i. eexists. split; [exact G4|]. split; [exact En|]. cbn. apply in_app_iff. auto.
    + intros (j & d & Ed & En & I). apply G3 in Ed. destruct Ed as [(-> & ->) | (N & Ed)].
      * cbn in En, I. apply in_app_iff in I. destruct I as [I | I]; [left; eauto|right; auto].
      * left. eauto.
  - intros j d Ed. apply G3 in Ed. destruct Ed as [(-> & ->) | (N & Ed)]; [intros _; exact Es|apply (b_act _ _ B _ _ Ed)].
  - intros j d o Ed. apply G3 in Ed. destruct Ed as [(-> & ->) | (N & Ed)]; [|apply (b_ref _ _ B _ _ _ Ed)]. cbn. rewrite in_app_iff, It.
    intros [I | (_ & I)]; [apply (b_ref _ _ B _ _ _ Ec I)|exact I].
  - intros j j' d d' o Ed Ed'. apply G3 in Ed. apply G3 in Ed'.
    destruct Ed as [(-> & ->) | (N & Ed)], Ed' as [(-> & ->) | (N' & Ed')]; cbn; auto; intros I J; eapply (b_own _ _ B); eauto.
  - intros j d o Ed. rewrite G1. apply G3 in Ed. destruct Ed as [(-> & ->) | (N & Ed)]; [|apply (b_lt _ _ B _ _ _ Ed)]. cbn. intros [I | []]. apply (b_lt _ _ B _ _ _ Ec). auto.
  - intros j d o Ed. apply G3 in Ed. destruct Ed as [(-> & ->) | (N & Ed)]; [intros []|apply (b_disj _ _ B _ _ _ Ed)].
  - intros j d _ Ed. apply G3 in Ed. destruct Ed as [(-> & ->) | (N & Ed)]; [reflexivity|apply (b_wait _ _ B j d); [congruence|exact Ed]].
  - intros j d Ed. apply G3 in Ed. destruct Ed as [(-> & ->) | (N & Ed)]; [|apply (b_nd _ _ B _ _ Ed)]. cbn. split; [constructor|split; [|exact N3]].
    apply nodup_both; [exact N2|exact Nt|]. intros o I J. apply It in J. apply (b_disj _ _ B _ _ _ Ec (proj1 J) I).
  - intros o. rewrite G2. destruct (is_in o todo) eqn:I; [|apply (b_all _ _ B)]. apply is_in_iff, It in I. rewrite (Hlife o) by tauto. discriminate.
  - intros o L. rewrite G1 in L. rewrite G2. destruct (is_in o todo) eqn:I; [|apply (b_new _ _ B), L]. apply is_in_iff, It in I.
    pose proof (b_lt _ _ B _ _ o Ec). assert (o < x_no x) by tauto. lia.
  - intros j d o Ed I. rewrite G2. apply G3 in Ed. destruct Ed as [(-> & ->) | (N & Ed)].
    + cbn in I |- *. rewrite in_app_iff, It. destruct (is_in o todo) eqn:T.
      * apply is_in_iff, It in T. left. rewrite (Hlife o) by tauto. tauto.
      * assert (T' : ~ In o todo) by (intros T'; apply is_in_iff in T'; congruence). rewrite It in T'.
        destruct (b_life _ _ B _ _ _ Ec I) as [(H & H') | [(H & H' & _) | (H & H' & H'')]]; [left; auto|tauto|right; right; tauto].
    + assert (T : is_in o todo = false). { destruct (is_in o todo) eqn:T; [|reflexivity]. apply is_in_iff, It in T. exfalso. apply N. apply (b_own _ _ B _ _ _ _ _ Ed Ec I). tauto. }
      rewrite T. apply (b_life _ _ B _ _ _ Ed I).
Qed.
Lemma coreB_add x i c : coreB x -> x_chans x i = Some c -> coreBe (Some i) (add_op i c x).
Proof.
  intros B Ec. unfold add_op.
  assert (G : forall j d, upd (x_chans x) i (Some (c_with_refs (c_refs c ++ [x_no x]) (c_with_ops (c_pending c ++ [x_no x]) (c_ops c) c))) j = Some d ->
    (j = i /\ d = c_with_refs (c_refs c ++ [x_no x]) (c_with_ops (c_pending c ++ [x_no x]) (c_ops c) c)) \/ (j <> i /\ x_chans x j = Some d)).
  { intros j d H. apply upd_conn_cases in H. exact H. }
  assert (Fr : forall j d, x_chans x j = Some d -> ~ In (x_no x) (c_refs d) /\ ~ In (x_no x) (c_pending d) /\ ~ In (x_no x) (c_ops d)).
  { intros j d H. assert (F : ~ (In (x_no x) (c_refs d) \/ In (x_no x) (c_pending d))) by (intros K; apply (b_lt _ _ B _ _ _ H) in K; lia).
    split; [tauto|split; [tauto|]]. intros K. apply F. left. apply (b_ref _ _ B _ _ _ H K). }
  destruct (b_nd _ _ B _ _ Ec) as (N1 & N2 & N3). destruct (Fr _ _ Ec) as (F1 & F2 & F3).
  constructor; cbn [x_chans x_conns x_no x_out set_chan set_next].
  - intros n k o Hk. rewrite (b_ops _ _ B _ _ _ Hk). split.
    + intros (j & d & Ed & En & I). destruct (Nat.eq_dec j i) as [-> | N].
      * rewrite Ec in Ed. inversion Ed; subst. exists i. eexists. rewrite upd_same. split; [reflexivity|]. auto.
      * exists j, d. rewrite upd_other by exact N. auto.
    + intros (j & d & Ed & En & I). apply G in Ed. destruct Ed as [(-> & ->) | (N & Ed)]; [exists i, c; auto|eauto].
  - intros j d Ed. apply G in Ed. destruct Ed as [(-> & ->) | (N & Ed)]; [apply (b_act _ _ B _ _ Ec)|apply (b_act _ _ B _ _ Ed)].
  - intros j d o Ed. apply G in Ed. destruct Ed as [(-> & ->) | (N & Ed)]; [|apply (b_ref _ _ B _ _ _ Ed)]. cbn. rewrite in_app_iff. intros I. left. apply (b_ref _ _ B _ _ _ Ec I).
  - intros j j' d d' o Ed Ed'. apply G in Ed. apply G in Ed'.
    destruct Ed as [(-> & ->) | (N & Ed)], Ed' as [(-> & ->) | (N' & Ed')]; cbn; auto; rewrite ?in_app_iff; cbn; intros I J.
    + destruct I as [I | [<- | []]]; [eapply (b_own _ _ B); eauto|]. exfalso. apply (proj1 (Fr _ _ Ed') J).
    + destruct J as [J | [<- | []]]; [eapply (b_own _ _ B); eauto|]. exfalso. apply (proj1 (Fr _ _ Ed) I).
    + eapply (b_own _ _ B); eauto.
  - intros j d o Ed I. apply G in Ed. destruct Ed as [(-> & ->) | (N & Ed)]; [|apply (b_lt _ _ B _ _ _ Ed) in I; lia]. cbn in I. rewrite !in_app_iff in I. cbn in I.
    assert (K : (In o (c_refs c) \/ In o (c_pending c)) \/ x_no x = o) by tauto. destruct K as [K | K]; [apply (b_lt _ _ B _ _ _ Ec) in K|]; lia.
  - intros j d o Ed. apply G in Ed. destruct Ed as [(-> & ->) | (N & Ed)]; [|apply (b_disj _ _ B _ _ _ Ed)]. cbn. rewrite in_app_iff. intros [I | [<- | []]] J; [apply (b_disj _ _ B _ _ _ Ec I J)|contradiction].
  - intros j d Ne Ed. apply G in Ed. destruct Ed as [(-> & ->) | (N & Ed)]; [congruence|apply (b_wait _ _ B j d); [discriminate|exact Ed]].
  - intros j d Ed. apply G in Ed. destruct Ed as [(-> & ->) | (N & Ed)]; [|apply (b_nd _ _ B _ _ Ed)]. cbn. split; [|split; [exact N2|]].
    + apply nodup_both; [exact N1|constructor; [intros []|constructor]|]. intros o I [<- | []]. contradiction.
    + apply nodup_both; [exact N3|constructor; [intros []|constructor]|]. intros o I [<- | []]. contradiction.
  - apply (b_all _ _ B).
  - intros o L. apply (b_new _ _ B). lia.
  - intros j d o Ed. apply G in Ed. destruct Ed as [(-> & ->) | (N & Ed)]; [|apply (b_life _ _ B _ _ _ Ed)]. cbn. rewrite !in_app_iff. cbn. intros [I | [<- | []]].
    + assert (x_no x <> o) by (intros <-; contradiction). destruct (b_life _ _ B _ _ _ Ec I) as [(H1 & H2) | [(H1 & H2 & H3) | (H1 & H2 & H3)]]; [left|right; left|right; right]; tauto.
    + right. left. split; [exact F3|split; [auto|]]. apply (b_new _ _ B). lia.
Qed.
(** an operation leaves a channel *)
Lemma coreB_less x x' i c c' op :
  coreB x -> x_chans x i = Some c -> x_no x' = x_no x ->
  (forall j d, x_chans x' j = Some d -> (j = i /\ d = c') \/ (j <> i /\ x_chans x j = Some d)) -> x_chans x' i = Some c' -> (forall j, j <> i -> x_chans x' j = x_chans x j) ->
  c_conn c' = c_conn c -> c_state c' = c_state c -> c_pending c' = c_pending c ->
  (forall o, In o (c_ops c') <-> In o (c_ops c) /\ o <> op) -> NoDup (c_ops c') ->
  (forall n k', x_conns x' n = Some k' -> exists k, x_conns x n = Some k /\ forall o, In o (n_ops k') <-> In o (n_ops k) /\ ~ (c_conn c = Some n /\ In o (c_ops c) /\ o = op)) ->
  ((c_refs c' = without op (c_refs c) /\ x_out x' = x_out x) \/ (c_refs c' = c_refs c /\ In op (c_ops c) /\ x_out x' = x_out x ++ [OEnd op])) ->
  coreB x'.
Proof.
  intros B Ec Hno G3 G4 G5 Hc Hs Hp Ho Hnd G6 R. destruct (b_nd _ _ B _ _ Ec) as (N1 & N2 & N3).
  assert (Rs : forall o, In o (c_refs c') -> In o (c_refs c)). { intros o I. destruct R as [(E & _) | (E & _)]; rewrite E in I; [apply in_without in I; tauto|exact I]. }
  assert (L : forall o, o <> op -> life_of o (x_out x') = life_of o (x_out x)).
  { intros o N. destruct R as [(_ & E) | (_ & _ & E)]; rewrite E; [reflexivity|]. apply life_quiet. intros f [<- | []]. cbn. apply Nat.eqb_neq, N. }
  assert (Lop : In op (c_ops c) -> life_of op (x_out x') = Some Running \/ (c_refs c' = c_refs c /\ life_of op (x_out x') = Some Ended)).
  { intros I. assert (H : life_of op (x_out x) = Some Running).
    { destruct (b_life _ _ B _ _ _ Ec (b_ref _ _ B _ _ _ Ec I)) as [(_ & H) | [(H & _) | (H & _)]]; [exact H|contradiction|contradiction]. }
    destruct R as [(_ & E) | (E1 & _ & E)]; rewrite E; [left; exact H|right]. split; [exact E1|]. rewrite life_app, H. cbn. rewrite Nat.eqb_refl. reflexivity. }
  constructor.
  - intros n k' o Hk. destruct (G6 _ _ Hk) as (k & Ek & ->). rewrite (b_ops _ _ B _ _ _ Ek). split.
    + intros ((j & d & Ed & En & I) & F). destruct (Nat.eq_dec j i) as [-> | N].
      * rewrite Ec in Ed. inversion Ed; subst. exists i, c'. split; [exact G4|]. rewrite Hc. split; [exact En|]. apply Ho. split; [exact I|]. intros ->. apply F. auto.
      * exists j, d. rewrite G5 by exact N. auto.
    + intros (j & d & Ed & En & I). apply G3 in Ed. destruct Ed as [(-> & ->) | (N & Ed)].
      * apply Ho in I. rewrite Hc in En. split; [exists i, c; tauto|]. intros (_ & _ & F). tauto.
      * split; [eauto|]. intros (_ & J & ->). apply N. apply (b_own _ _ B _ _ _ _ _ Ed Ec (b_ref _ _ B _ _ _ Ed I) (b_ref _ _ B _ _ _ Ec J)).
  - intros j d Ed. apply G3 in Ed. destruct Ed as [(-> & ->) | (N & Ed)]; [|apply (b_act _ _ B _ _ Ed)]. intros F. rewrite Hs. apply (b_act _ _ B _ _ Ec).
    intros Z. apply F. destruct (c_ops c') as [|o l] eqn:El; [reflexivity|]. destruct (proj1 (Ho o) (or_introl eq_refl)) as (I & _). rewrite Z in I. destruct I.
  - intros j d o Ed. apply G3 in Ed. destruct Ed as [(-> & ->) | (N & Ed)]; [|apply (b_ref _ _ B _ _ _ Ed)]. rewrite Ho. intros (I & F).
    pose proof (b_ref _ _ B _ _ _ Ec I). destruct R as [(E & _) | (E & _)]; rewrite E; [apply in_without; auto|assumption].
  - intros j j' d d' o Ed Ed'. apply G3 in Ed. apply G3 in Ed'.
    destruct Ed as [(-> & ->) | (N & Ed)], Ed' as [(-> & ->) | (N' & Ed')]; cbn; auto; intros I J; eapply (b_own _ _ B); eauto.
  - intros j d o Ed. rewrite Hno. apply G3 in Ed. destruct Ed as [(-> & ->) | (N & Ed)]; [|apply (b_lt _ _ B _ _ _ Ed)]. rewrite Hp. intros I. apply (b_lt _ _ B _ _ _ Ec).
    destruct I as [I | I]; auto.
  - intros j d o Ed. apply G3 in Ed. destruct Ed as [(-> & ->) | (N & Ed)]; [|apply (b_disj _ _ B _ _ _ Ed)]. rewrite Hp, Ho. intros I (J & _). apply (b_disj _ _ B _ _ _ Ec I J).
  - intros j d Ne Ed. apply G3 in Ed. destruct Ed as [(-> & ->) | (N & Ed)]; [rewrite Hs, Hp; apply (b_wait _ _ B _ _ Ne Ec)|apply (b_wait _ _ B _ _ Ne Ed)].
  - intros j d Ed. apply G3 in Ed. destruct Ed as [(-> & ->) | (N & Ed)]; [|apply (b_nd _ _ B _ _ Ed)]. rewrite Hp. split; [exact N1|split; [exact Hnd|]].
    destruct R as [(E & _) | (E & _)]; rewrite E; [apply nodup_f, N3|exact N3].
  - intros o. destruct (Nat.eq_dec o op) as [-> | N]; [|rewrite (L o N); apply (b_all _ _ B)].
    destruct R as [(_ & E) | (_ & I & _)]; [rewrite E; apply (b_all _ _ B)|]. destruct (Lop I) as [H | (_ & H)]; rewrite H; discriminate.
  - intros o Lo. rewrite Hno in Lo. destruct (Nat.eq_dec o op) as [-> | N]; [|rewrite (L o N); apply (b_new _ _ B _ Lo)].
    destruct R as [(_ & E) | (_ & I & _)]; [rewrite E; apply (b_new _ _ B _ Lo)|]. pose proof (b_lt _ _ B _ _ _ Ec (or_introl (b_ref _ _ B _ _ _ Ec I))). lia.
  - intros j d o Ed I. apply G3 in Ed. destruct Ed as [(-> & ->) | (N & Ed)].
    + rewrite Ho, Hp. destruct (Nat.eq_dec o op) as [-> | N].
      * destruct R as [(E & _) | (E & J & Eo)]; [rewrite E in I; apply in_without in I; tauto|]. right. right. split; [tauto|split; [intros K; apply (b_disj _ _ B _ _ _ Ec K J)|]].
        destruct (b_life _ _ B _ _ _ Ec (b_ref _ _ B _ _ _ Ec J)) as [(_ & H) | [(H & _) | (H & _)]]; [|contradiction|contradiction].
        rewrite Eo, life_app, H. cbn. rewrite Nat.eqb_refl. reflexivity.
      * rewrite (L o N). destruct (b_life _ _ B _ _ _ Ec (Rs _ I)) as [(H1 & H2) | [(H1 & H2 & H3) | (H1 & H2 & H3)]]; [left|right; left|right; right]; tauto.
    + destruct (Nat.eq_dec o op) as [-> | No]; [|rewrite (L o No); apply (b_life _ _ B _ _ _ Ed I)].
      destruct R as [(_ & E) | (_ & J & _)]; [rewrite E; apply (b_life _ _ B _ _ _ Ed I)|]. exfalso. apply N. apply (b_own _ _ B _ _ _ _ _ Ed Ec I (b_ref _ _ B _ _ _ Ec J)).
Qed.
Lemma coreB_drop x i op x' : coreB x -> drop_op i op x = Some x' -> coreB x'.
Proof.
  intros B E. unfold drop_op, bind, leave_op in E. destruct (x_chans x i) as [c|] eqn:Ec; [|cbn in E; rewrite Ec in E; inversion E; subst; exact B].
  destruct (b_nd _ _ B _ _ Ec) as (N1 & N2 & N3).
  destruct (is_in op (c_ops c)) eqn:I.
  - destruct (c_conn c) as [n|] eqn:En; [|discriminate]. destruct (x_conns x n) as [k|] eqn:Ek; [|discriminate]. cbn in E. rewrite upd_same in E. inversion E; subst. clear E.
    apply (coreB_less x _ i c (c_with_refs (without op (c_refs c)) (c_with_ops (c_pending c) (without op (c_ops c)) c)) op B Ec); cbn; rewrite ?upd_same; try reflexivity.
    + intros j d H. unfold upd in H. destruct (Nat.eqb_spec j i) as [-> | N]; [inversion H; auto|auto].
    + intros j N. rewrite !upd_other by exact N. reflexivity.
    + intros o. rewrite in_without. tauto.
    + apply nodup_f, N2.
    + intros m k' H. apply upd_conn_cases in H. destruct H as [(-> & ->) | (N & H)].
      * exists k. split; [exact Ek|]. intros o. cbn. rewrite in_without. split; [intros (H1 & H2); split; [exact H2|tauto]|]. intros (H1 & H2). split; [|exact H1]. intros ->. apply H2. apply is_in_iff in I. auto.
      * exists k'. split; [exact H|]. intros o. split; [|tauto]. intros J. split; [exact J|]. intros (F & _). congruence.
    + left. auto.
  - rewrite Ec in E. inversion E; subst. clear E. assert (NI : ~ In op (c_ops c)) by (intros K; apply is_in_iff in K; congruence).
    apply (coreB_less x _ i c (c_with_refs (without op (c_refs c)) c) op B Ec); cbn; rewrite ?upd_same; try reflexivity.
    + intros j d H. apply upd_conn_cases in H. exact H.
    + intros j N. rewrite upd_other by exact N. reflexivity.
    + intros o. split; [|tauto]. intros K. split; [exact K|]. intros ->. contradiction.
    + exact N2.
    + intros m k' H. exists k'. split; [exact H|]. intros o. split; [|tauto]. intros J. split; [exact J|]. intros (_ & F & ->). contradiction.
    + left. auto.
Qed.
Lemma coreB_end x i op x' : coreB x -> end_op i op x = Some x' -> coreB x'.
Proof.
  intros B E. unfold end_op, bind, leave_op in E. destruct (x_chans x i) as [c|] eqn:Ec; [|inversion E; subst; exact B].
  destruct (b_nd _ _ B _ _ Ec) as (N1 & N2 & N3).
  destruct (is_in op (c_ops c)) eqn:I; [|inversion E; subst; exact B].
  destruct (c_conn c) as [n|] eqn:En; [|discriminate]. destruct (x_conns x n) as [k|] eqn:Ek; [|discriminate]. inversion E; subst. clear E.
  apply (coreB_less x _ i c (c_with_ops (c_pending c) (without op (c_ops c)) c) op B Ec); cbn; rewrite ?upd_same; try reflexivity.
  - intros j d H. apply upd_conn_cases in H. exact H.
  - intros j N. rewrite !upd_other by exact N. reflexivity.
  - intros o. rewrite in_without. tauto.
  - apply nodup_f, N2.
  - intros m k' H. apply upd_conn_cases in H. destruct H as [(-> & ->) | (N & H)].
    * exists k. split; [exact Ek|]. intros o. cbn. rewrite in_without. split; [intros (H1 & H2); split; [exact H2|tauto]|]. intros (H1 & H2). split; [|exact H1]. intros ->. apply H2. apply is_in_iff in I. auto.
    * exists k'. split; [exact H|]. intros o. split; [|tauto]. intros J. split; [exact J|]. intros (F & _). congruence.
  - right. apply is_in_iff in I. auto.
Qed.
Theorem coreB_prim h e1 e2 e3 x y : coreA x -> coreB x -> prim h e1 e2 e3 x y -> coreB y.
Proof.
  intros C B P. pose proof (coreA_prim h e1 e2 e3 x y C P) as C'. destruct P as
   [a r ok x' n Hr Ha E | i n c k Ec Es Ek Ea Hr | i n c k Ec Es En Ek Hb Hr | again i c Ec Hk He | i | i Hp | name server Hr Hn He
   | i c x' Ec E | i op x' E | i op x' E | i c Ec | i w c Ec | n x' E | n k s t r Ek He Hs | a | n k Ek Ho He | i n c k Ec Es En Ek | i n sid c k x2 c2 Ec Es En Ek Hb Ns E E2
   | n ok x' Hh E | l Hl Nd | n k Ek | l Hl | | i c Ec Hh Es En | n k Ek Hu Ha | l Hl | n k Ek];
   try (apply (coreB_rest _ x); auto; fail); try (apply (coreB_tcp _ x n k); auto; fail).
  - unfold build_conn in E. rewrite Hr in E. cbn [negb] in E. rewrite Ha in E. destruct (r || ok); inversion E; subst; clear E.
    apply (coreB_same _ x); auto.
    + eexists. split; [reflexivity|]. destruct r; [apply quiet_nil|]. intros e o [<- | []]. reflexivity.
    + intros i c E. exists c. cbn in E. tauto.
    + intros i c E _. exists c. auto.
    + intros m q H. cbn in H. apply upd_conn_cases in H. destruct H as [(-> & ->) | (N & H)]; [right|left; eauto]. split; [reflexivity|].
      intros i c Ec En. destruct (a_live _ C i (x_nn x) (c_state c) (c_sid c) (place_i x i c _ Ec En)) as (k & Ek). apply (a_conn _ C) in Ek. lia.
  - unfold attach1. assert (No : c_ops c = []). { destruct (c_ops c) eqn:El; [reflexivity|]. assert (c_ops c <> []) by congruence. apply (b_act _ _ B _ _ Ec) in H. congruence. }
    apply (coreB_chan _ _ i c); auto; [apply (coreB_tcp _ x n k); auto|rewrite No; congruence|cbn; congruence].
  - unfold creating1. assert (No : c_ops c = []). { destruct (c_ops c) eqn:El; [reflexivity|]. assert (c_ops c <> []) by congruence. apply (b_act _ _ B _ _ Ec) in H. congruence. }
    apply coreB_emit; [|intros e o [<- | []]; reflexivity].
    apply (coreB_chan _ _ i c); auto; [apply (coreB_tcp _ x n k); auto|rewrite No; congruence|cbn; congruence].
  - apply coreB_disc; assumption.
  - assert (Fr : x_chans x (x_nc x) = None). { destruct (x_chans x (x_nc x)) eqn:F; [|reflexivity]. apply (a_chan _ C) in F. lia. }
    assert (Gc : forall j d, x_chans (newchan name server x) j = Some d -> (j = x_nc x /\ d = new_channel name server) \/ x_chans x j = Some d).
    { intros j d H. cbn in H. apply upd_conn_cases in H. tauto. }
    destruct B. constructor; try assumption.
    + intros n k o Hk. cbn in Hk. rewrite (b_ops0 n k o Hk). split; intros (j & d & Ed & H & I).
      * exists j, d. split; [|auto]. cbn. rewrite upd_other; [exact Ed|congruence].
      * apply Gc in Ed. destruct Ed as [(-> & ->) | Ed]; [destruct I|eauto].
    + intros j d Ed. apply Gc in Ed. destruct Ed as [(-> & ->) | Ed]; [cbn; congruence|eauto].
    + intros j d o Ed. apply Gc in Ed. destruct Ed as [(-> & ->) | Ed]; [intros []|eauto].
    + intros j j' d d' o Ed Ed'. apply Gc in Ed. apply Gc in Ed'. destruct Ed as [(-> & ->) | Ed], Ed' as [(-> & ->) | Ed']; cbn; try tauto. eauto.
    + intros j d o Ed. apply Gc in Ed. destruct Ed as [(-> & ->) | Ed]; [cbn; tauto|apply (b_lt0 _ _ _ Ed)].
    + intros j d o Ed. apply Gc in Ed. destruct Ed as [(-> & ->) | Ed]; [intros []|eauto].
    + intros j d Ne Ed. apply Gc in Ed. destruct Ed as [(-> & ->) | Ed]; [discriminate|eauto].
    + intros j d Ed. apply Gc in Ed. destruct Ed as [(-> & ->) | Ed]; [cbn; repeat split; constructor|eauto].
    + intros j d o Ed. apply Gc in Ed. destruct Ed as [(-> & ->) | Ed]; [intros []|apply (b_life0 _ _ _ Ed)].
  - apply (coreB_start i (add_op i c x)); [|apply coreB_add; assumption|exact E].
    unfold add_op. apply (coreA_chan _ i c); auto. apply coreA_next; auto.
  - apply (coreB_drop x i op); assumption.
  - apply (coreB_end x i op); assumption.
  - unfold add_watch. apply coreB_emit; [|intros e o [<- | []]; destruct (is_active c); reflexivity].
    apply (coreB_chan _ _ i c); auto. apply (coreB_rest _ x); auto.
  - apply (coreB_chan _ _ i c); auto.
  - unfold tcp_up in E. destruct (x_conns x n) as [k|] eqn:Ek; [|inversion E; subst; exact B].
    destruct (n_state k); try (inversion E; subst; exact B). destruct (n_bev k); inversion E; subst; [|exact B]. apply (coreB_tcp _ x n k); auto.
  - unfold refused1. assert (No : c_ops c = []). { destruct (c_ops c) eqn:El; [reflexivity|]. assert (c_ops c <> []) by congruence. apply (b_act _ _ B _ _ Ec) in H. congruence. }
    match goal with |- coreB (set_search _ ?z) => apply (coreB_rest _ z); auto end.
    apply (coreB_chan _ _ i c); auto; [apply (coreB_tcp _ x n k); auto|rewrite No; congruence|cbn; congruence].
  - unfold told. apply coreB_emit; [|apply ups_quiet]. apply (coreB_chan _ _ i c2); auto. apply (coreB_start i (active1 i n sid c k x)); [apply coreA_active1; assumption| |exact E].
    unfold active1. assert (No : c_ops c = []). { destruct (c_ops c) eqn:El; [reflexivity|]. assert (c_ops c <> []) by congruence. apply (b_act _ _ B _ _ Ec) in H. congruence. }
    apply (coreB_chan _ _ i c); auto; [|rewrite No; congruence|congruence].
    apply (coreB_tcp _ x n k); auto. destruct B. constructor; auto. intros j d _ Ed. apply (b_wait0 j d); [discriminate|exact Ed].
  - unfold tick in E. destruct (x_conns x n) as [k|] eqn:Ek; [|inversion E; subst; exact B]. destruct (n_timer k); [|inversion E; subst; exact B].
    destruct (n_state k); try (inversion E; subst; apply coreB_emit; [exact B|]; destruct (n_bev k); [intros e o [<- | []]; reflexivity|apply quiet_nil]).
    destruct ok; inversion E; subst; [apply coreB_emit; [|intros e o [<- | []]; reflexivity]|]; apply (coreB_tcp _ x n k); auto.
  - unfold held in Hh. assert (No : c_refs c = []). { destruct (c_refs c); [reflexivity|]. rewrite !orb_false_iff in Hh. cbn in Hh. destruct Hh as ((_ & F) & _). discriminate. }
    apply (coreB_same _ x); auto.
    + exists []. rewrite app_nil_r. split; [reflexivity|apply quiet_nil].
    + intros j d H. cbn in H. unfold upd in H. destruct (Nat.eqb_spec j i); [discriminate|]. exists d. tauto.
    + intros j d H N. cbn. unfold upd. destruct (Nat.eqb_spec j i) as [-> | Nj]; [|eauto]. rewrite Ec in H. inversion H; subst. exfalso. apply N.
      destruct (c_ops d) as [|o l] eqn:El; [reflexivity|]. assert (I : In o (c_ops d)) by (rewrite El; left; reflexivity). apply (b_ref _ _ B _ _ _ Ec) in I. rewrite No in I. destruct I.
    + intros m q H. left. exists q. auto.
  - apply (coreB_same _ x); auto.
    + exists []. rewrite app_nil_r. split; [reflexivity|apply quiet_nil].
    + intros j d H. exists d. cbn in H. tauto.
    + intros j d H _. exists d. auto.
    + intros m q H. left. cbn in H. unfold upd in H. destruct (Nat.eqb_spec m n); [discriminate|eauto].
  - apply coreB_emit; [exact B|apply plain_quiet, Hl].
Qed.
