(** Theorems on server side subscriptions: C25 (queue), C27 (flow control), C28
    (progress), C62 (statistics).

    [U] are updates, [real u] whether an update has a requested field, [squash]
    merges a newer update into an older one.  [reached nack pipe qsize es m o]:
    the subscription opened with a window of [nack], with or without pipelining
    and a queue of [qsize], is in state [m] after the steps [es] and produced
    the outputs [o].  The steps are those of all threads, in any order. *)
From Coq Require Import List Bool Arith Lia.
From Verif Require Import ServerMonModel ServerMonSpec ServerMonProofs.
Import ListNotations.

(** ** C25: the queue *)

(** What was sent, followed by what is queued, are the updates posted in order,
    each exactly once, some of them merged with their successors. *)
Theorem C25_order : forall U real squash nack pipe qsize es m o,
  reached U real squash nack pipe qsize es m o ->
  exists groups, Forall2 (merged U squash) groups (sent U o ++ pending U m) /\
    concat groups = accepted U real squash (create U nack pipe qsize) es.
Proof.
  intros U real squash nack pipe qsize es m o R.
  destruct (run_groups U real squash es _ _ _ [] [] R (create_inv U nack pipe qsize)) as (g & G & C).
  { exists []. split; [constructor|reflexivity]. }
  exists g. auto.
Qed.
(** At most the agreed number of updates is queued, plus those forced in. *)
Theorem C25_bound : forall U real squash nack pipe qsize es m o,
  reached U real squash nack pipe qsize es m o ->
  limit U m = max 1 (max nack (match qsize with Some n => n | None => 4 end)) /\
  length (pending U m) <= limit U m + forced U es.
Proof.
  intros U real squash nack pipe qsize es m o R. pose proof (create_inv U nack pipe qsize) as I.
  destruct (run_inv _ _ _ _ _ _ _ R I) as (_ & L & _). rewrite L.
  split.
  - unfold create. cbn [limit]. cbv zeta. generalize (match qsize with Some n => n | None => 4 end). intro l0.
    destruct (Nat.ltb_spec l0 nack); [destruct (Nat.eqb_spec nack 0)|destruct (Nat.eqb_spec l0 0)]; lia.
  - pose proof (run_bound _ _ _ es _ _ _ 0 R I). cbn [pending queue create pending_of length ServerMonSpec.pending] in H.
    rewrite Nat.add_0_r in H. apply H. cbn. lia.
Qed.
(** A post says whether there is room for another update; a tryPost() into a
    full queue says no and does nothing; after finish() nothing is taken. *)
Theorem C25_post_result : forall U real squash nack pipe qsize es m o val maybe force m' o',
  reached U real squash nack pipe qsize es m o -> step U real squash m (EPost U val maybe force) = Some (m', o') ->
  o' = [OReturn U (negb (finished U m) && (length (queue U m') <? limit U m))] /\
  (finished U m = true -> queue U m' = queue U m) /\
  (forall u, val = Some u -> maybe = true -> force = false -> limit U m <= length (queue U m) ->
     queue U m' = queue U m /\ o' = [OReturn U false]) /\
  (forall u, val = Some u -> finished U m = false -> real u = true -> (force = true \/ length (queue U m) < limit U m) ->
     queue U m' = queue U m ++ [Some u]).
Proof.
  intros U real squash nack pipe qsize es m o val maybe force m' o' R S.
  destruct (run_inv _ _ _ _ _ _ _ R (create_inv U nack pipe qsize)) as (I & _).
  cbn in S. destruct (typed U m) eqn:T; [|discriminate]. injection S as S.
  destruct (do_post_ok U real squash m val maybe force m' o' S I T) as (_ & PE & O & _). split; [exact O|].
  destruct PE as [QU FN TK _ NS|u -> QU FN FM RU NS TK LF|u q b -> QU QU' FN FM RU NS TK LF| -> QU FN FM NS].
  - split; [auto|]. split.
    + intros u -> -> -> L. split; [exact QU|]. rewrite O, QU. apply Nat.ltb_ge in L. now rewrite L, andb_false_r.
    + intros u -> F RU H. exfalso. cbn [takes] in TK. rewrite RU, F in TK. cbn [negb andb] in TK.
      destruct H as [-> |H]; [rewrite orb_true_r in TK; discriminate|]. apply Nat.ltb_lt in H. rewrite H, orb_true_r in TK. discriminate.
  - split; [congruence|]. split; [|intros u' E _ _ _; injection E as <-; exact QU].
    intros u' _ -> -> L. destruct LF as [LF|LF]; [discriminate|lia].
  - split; [congruence|]. destruct LF as (-> & LF). split.
    + intros u' _ -> _ L. exfalso. cbn [takes negb orb] in TK. apply Nat.ltb_ge in LF. rewrite LF, andb_false_r in TK. discriminate.
    + intros u' _ _ _ [H|H]; [discriminate|lia].
  - split; [congruence|]. split; intros; discriminate.
Qed.
(** No message without a body is sent, and no assertion fails. *)
Theorem C25_no_abort : forall U real squash nack pipe qsize es m o,
  reached U real squash nack pipe qsize es m o -> ~ In (OEmpty U) o /\ ~ In (OAssert U) o.
Proof.
  intros U real squash nack pipe qsize es m o R. exact (run_wellformed _ _ _ _ _ _ _ R (create_inv U nack pipe qsize)).
Qed.

(** ** C27: flow control and the end *)

(** While the source has not finished: no more updates sent than the client
    granted, except at most one more per time the client stopped the
    subscription. *)
Theorem C27_window_partial : forall U real squash nack qsize es m o,
  reached U real squash nack true qsize es m o -> no_finish U es ->
  length (sent U o) <= nack + acks U es + stops U es.
Proof.
  intros U real squash nack qsize es m o R NF.
  pose proof (run_window _ _ _ _ _ _ _ R (create_inv U nack true qsize) eq_refl eq_refl NF). unfold credit in *. cbn [create window st state_eqb andb] in *. lia.
Qed.
(** The end is announced at most once, only when the source finished, after all
    updates, and nothing is sent after it. *)
Theorem C27_end : forall U real squash nack pipe qsize es m o,
  reached U real squash nack pipe qsize es m o -> In (OFinish U) o ->
  (exists a b, In (EPost U None a b) es) /\
  exists pre post groups, o = pre ++ OFinish U :: post /\
    ~ In (OFinish U) pre /\ ~ In (OFinish U) post /\ sent U post = [] /\
    Forall2 (merged U squash) groups (sent U pre) /\
    concat groups = accepted U real squash (create U nack pipe qsize) es.
Proof.
  intros U real squash nack pipe qsize es m o R X. pose proof (create_inv U nack pipe qsize) as I.
  destruct (run_end _ _ _ _ _ _ _ R I X) as (pre & post & -> & A & B & C & D). split.
  - apply (run_finished _ _ _ es _ _ _ R I eq_refl). destruct (finished U m) eqn:F; [reflexivity|]. exfalso.
    clear - R X I F D. unfold reached in R. set (m0 := create U nack pipe qsize) in *. clearbody m0. revert m0 R I.
    remember (pre ++ OFinish U :: post) as o. clear Heqo. revert o X. induction es as [|e es IH]; intros o X m0 R I; [injection R as <- <-; easy|].
    apply run_cons in R. destruct R as (m1 & o1 & o' & S & R & ->). pose proof (step_ok _ _ _ _ _ _ _ S I) as ST.
    apply in_app_or in X. destruct X as [X|X]; [|exact (IH o' X m1 R (s_inv _ _ _ _ _ _ _ ST))].
    destruct (s_effect _ _ _ _ _ _ _ ST) as [Q QU FN TK NQ _|val maybe force EE OE PE MQ|x O QU FN TK NS MQ SS _].
    + unfold quiet in Q. rewrite Forall_forall in Q. exact (Q _ X).
    + rewrite OE in X. destruct X as [X|[]]. discriminate.
    + rewrite O in X. destruct X as [X|[]]. destruct x; [discriminate|]. destruct I as (I0 & _).
      destruct (queue_tail U (finished U m0) None (queue U m1)) as (_ & _ & H).
      * pose proof (i_queue _ _ I0) as Y. rewrite QU in Y. exact Y.
      * pose proof (i_fin _ _ I0) as Y. rewrite QU in Y. exact Y.
      * destruct (H eq_refl) as (Q1 & F1). rewrite <- FN in F1.
        destruct (run_over _ _ _ _ _ _ _ R (s_inv _ _ _ _ _ _ _ ST) F1 Q1) as (_ & _ & _ & Y). congruence.
  - destruct (C25_order _ _ _ _ _ _ _ _ _ R) as (g & G & CG). exists pre, post, g. repeat split; auto.
    unfold pending in G. rewrite D, app_nil_r, sent_app in G. cbn [sent] in G. now rewrite C, app_nil_r in G.
Qed.

(** ** C28: progress *)

(** Without pipelining: when the server has nothing left to do and the
    subscription is running, everything posted was sent. *)
Theorem C28_no_stall_unpipelined : forall U real squash nack qsize es m o,
  reached U real squash nack false qsize es m o -> quiescent U m -> st U m = Executing ->
  queue U m = [] /\
  exists groups, Forall2 (merged U squash) groups (sent U o) /\
    concat groups = accepted U real squash (create U nack false qsize) es.
Proof.
  intros U real squash nack qsize es m o R Q S. pose proof (create_inv U nack false qsize) as I.
  destruct (run_inv _ _ _ _ _ _ _ R I) as (I' & _ & P). cbn in P.
  assert (E : queue U m = []).
  { destruct (quiescent_idle U m I') as [E|(E & _)]; auto; [|congruence].
    apply (run_kicked _ _ _ es _ _ _ R I); [now left|]. intros _ X. unfold wready, create in X. cbn in X. intuition discriminate. }
  split; [exact E|]. destruct (C25_order _ _ _ _ _ _ _ _ _ R) as (g & G & CG). unfold pending in G. rewrite E in G. cbn in G. rewrite app_nil_r in G. eauto.
Qed.
(** With pipelining, if the client acknowledges only in messages which also
    start the subscription: when the server has nothing left to do, everything
    was sent or the window is used up. *)
Theorem C28_no_stall_partial : forall U real squash nack pipe qsize es m o,
  reached U real squash nack pipe qsize es m o -> no_bare_ack U es -> quiescent U m -> st U m = Executing ->
  queue U m = [] \/ (pipe = true /\ window U m = 0).
Proof.
  intros U real squash nack pipe qsize es m o R NB Q S. pose proof (create_inv U nack pipe qsize) as I.
  destruct (run_inv _ _ _ _ _ _ _ R I) as (I' & _ & P). cbn in P. rewrite <- P.
  apply (quiescent_idle U m I'); auto. apply (run_kicked _ _ _ es _ _ _ R I); [now right|]. intros _ X. unfold wready, create in X. cbn in X. intuition discriminate.
Qed.

(** ** C62: statistics *)

(** The number of merged updates is counted correctly, and so is the largest
    number queued, until the statistics are reset. *)
Theorem C62_counters_partial : forall U real squash nack pipe qsize es m o,
  reached U real squash nack pipe qsize es m o -> no_reset U es ->
  length (accepted U real squash (create U nack pipe qsize) es) = nsquash U m + length (sent U o) + length (pending U m) /\
  (let '(running, fin, pipelining, _, maxq, lim, win, _) := stats U m in
   (running = true <-> st U m = Executing) /\ fin = finished U m /\ pipelining = pipe /\ lim = limit U m /\ win = window U m /\
   maxq = peak U real squash (create U nack pipe qsize) es).
Proof.
  intros U real squash nack pipe qsize es m o R NR. pose proof (create_inv U nack pipe qsize) as I.
  destruct (run_inv _ _ _ _ _ _ _ R I) as (_ & _ & P).
  destruct (run_count _ _ _ es _ _ _ R I NR) as (A & B); [cbn; lia|]. split; [unfold pending in A at 2; cbn [create nsquash queue pending_of length] in A; lia|].
  cbn. repeat split; auto; [apply state_eqb_eq|apply state_eqb_eq].
Qed.

(** ** Counterexamples *)
Definition ex_real (_ : nat) : bool := true.
Definition ex_squash (a b : nat) : nat := b.
Notation ex_run := (run nat ex_real ex_squash).
Definition ex_start : list (event nat) := [EConnect nat; EMsg nat None (Some true) false; EMsgEnd nat false].
Definition ex_post (u : nat) : event nat := EPost nat (Some u) false false.
Definition ex_end : event nat := EPost nat None false false.

(** After finish() the queue is sent without regard to the window. *)
Theorem C27_finish_window_refuted : exists es m o,
  reached nat ex_real ex_squash 1 true (Some 4) es m o /\ stops nat es = 0 /\ acks nat es = 0 /\ length (sent nat o) = 3.
Proof.
  exists (ex_start ++ [ex_post 1; ex_post 2; ex_post 3; ex_end; ETask nat; ETask nat; ETask nat]).
  eexists _, _. split; [vm_compute; reflexivity|]. repeat split.
Qed.
(** An update sent just after the client stopped the subscription is not
    counted against the window. *)
Theorem C27_stop_window_refuted : exists es m o,
  reached nat ex_real ex_squash 1 true (Some 4) es m o /\ no_finish nat es /\ acks nat es = 0 /\ length (sent nat o) = 2.
Proof.
  exists (ex_start ++ [ex_post 1; EMsg nat None (Some false) false; EMsgEnd nat false; ETask nat;
    EMsg nat None (Some true) false; EMsgEnd nat false; ex_post 2; ETask nat]).
  eexists _, _. split; [vm_compute; reflexivity|]. split; [intros a b; cbn; intuition discriminate|]. split; reflexivity.
Qed.
(** The end of a subscription reached just after the client stopped it is sent
    as an update which the client cannot decode. *)
Theorem C27_stopped_end_refuted : exists es m o,
  reached nat ex_real ex_squash 0 false (Some 4) es m o /\ In (OGarbled nat) o /\ ~ In (OFinish nat) o.
Proof.
  exists (ex_start ++ [ex_end; EMsg nat None (Some false) false; EMsgEnd nat false; ETask nat]).
  eexists _, _. split; [vm_compute; reflexivity|]. split; [cbn; auto 10|]. cbn. intuition discriminate.
Qed.
(** A subscription which used up its window, with updates queued: the client
    acknowledges, the server has nothing left to do, and the update stays. *)
Theorem C28_ack_refuted : exists es m o,
  reached nat ex_real ex_squash 1 true (Some 4) es m o /\ quiescent nat m /\ st nat m = Executing /\
  pending nat m = [2] /\ window nat m = 1.
Proof.
  exists (ex_start ++ [ex_post 1; ex_post 2; ETask nat; EMsg nat (Some 1) None false]).
  eexists _, _. split; [vm_compute; reflexivity|]. repeat split.
Qed.
(** The number of queued updates is reported as that of merged updates, and
    that as zero. *)
Theorem C62_stats_refuted : exists es m o,
  reached nat ex_real ex_squash 0 false (Some 1) es m o /\ length (queue nat m) = 1 /\ nsquash nat m = 3 /\
  let '(_, _, _, nqueue, _, _, _, nsq) := stats nat m in nqueue = 3 /\ nsq = 0.
Proof.
  exists [EConnect nat; ex_post 1; ex_post 2; ex_post 3; ex_post 4].
  eexists _, _. split; [vm_compute; reflexivity|]. repeat split.
Qed.

(** ** Non-vacuity *)

(** A queue of two, four posts before the start, one forced post, two tasks:
    posts 2 to 4 merged into one. *)
Example serving : exists m o, reached nat ex_real Nat.add 0 false (Some 2)
    (EConnect nat :: map ex_post [1; 2; 3; 4] ++ [EPost nat (Some 7) true false; EPost nat (Some 5) false true] ++ tl ex_start ++ [ETask nat; ETask nat]) m o /\
  sent nat o = [1; 9] /\ pending nat m = [5] /\
  accepted nat ex_real Nat.add (create nat 0 false (Some 2))
    (EConnect nat :: map ex_post [1; 2; 3; 4] ++ [EPost nat (Some 7) true false; EPost nat (Some 5) false true] ++ tl ex_start ++ [ETask nat; ETask nat])
    = [1; 2; 3; 4; 5].
Proof. eexists _, _. split; [vm_compute; reflexivity|]. repeat split. Qed.
(** Pipelined, acknowledged, finished. *)
Example ending : exists m o, reached nat ex_real ex_squash 1 true None
    (ex_start ++ [ex_post 1; ETask nat; ex_post 2; EMsg nat (Some 1) (Some true) false; EMsgEnd nat false; ETask nat; ex_end; EMsg nat (Some 1) (Some true) false; EMsgEnd nat false; ETask nat]) m o /\
  sent nat o = [1; 2] /\ In (OFinish nat) o.
Proof. eexists _, _. split; [vm_compute; reflexivity|]. split; [reflexivity|]. cbn. auto 10. Qed.
(** Running, drained, nothing to do. *)
Example drained : exists m o, reached nat ex_real ex_squash 0 false None (ex_start ++ [ex_post 1; ETask nat; ex_post 2; ETask nat]) m o /\
  quiescent nat m /\ st nat m = Executing /\ sent nat o = [1; 2].
Proof. eexists _, _. split; [vm_compute; reflexivity|]. repeat split. Qed.
Example drained_pipelined :
  let es := ex_start ++ [ex_post 1; ETask nat; ex_post 2; EMsg nat (Some 1) (Some true) false; EMsgEnd nat false; ETask nat] in
  exists m o, reached nat ex_real ex_squash 1 true None es m o /\ no_bare_ack nat es /\ no_finish nat es /\ no_reset nat es /\
  quiescent nat m /\ st nat m = Executing /\ sent nat o = [1; 2].
Proof.
  eexists _, _. split; [vm_compute; reflexivity|]. split; [intros n r d H; cbn in H; repeat (destruct H as [H|H]; [try discriminate; injection H; intros; subst; reflexivity|]); contradiction|].
  split; [intros a b; cbn; intuition discriminate|]. split; [unfold no_reset; cbn; intuition discriminate|]. repeat split.
Qed.

Print Assumptions C25_order.
Print Assumptions C25_bound.
Print Assumptions C25_post_result.
Print Assumptions C25_no_abort.
Print Assumptions C27_window_partial.
Print Assumptions C27_end.
Print Assumptions C28_no_stall_unpipelined.
Print Assumptions C28_no_stall_partial.
Print Assumptions C62_counters_partial.
Print Assumptions C27_finish_window_refuted.
Print Assumptions C27_stop_window_refuted.
Print Assumptions C27_stopped_end_refuted.
Print Assumptions C28_ack_refuted.
Print Assumptions C62_stats_refuted.
