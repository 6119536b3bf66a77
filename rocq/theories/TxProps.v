(** C110: what a server keeps for a client that reads slowly, or not at all. *)
From Coq Require Import List Bool Arith Lia.
From Verif Require Import TxModel TxProofs.
Import ListNotations.

(** The states of a connection: the output buffer may hold [limit] bytes, a subscription [lim] updates. *)
Definition reached (limit lim : nat) (s : conn) : Prop := exists es, run limit lim fresh es = Some s.
(** The client takes bytes, and the server does what this allows; nobody posts and the client asks for nothing. *)
Definition catching_up (e : event) : Prop := e = Work \/ e = Write \/ exists n, e = Drain n.
(** Nothing is owed to the client: no bytes, no updates, no subscription is held back, and requests are read. *)
Definition served (s : conn) : Prop := tx s = 0 /\ reading s = true /\ backlog s = [] /\ forall i, queue (subs s i) = [].
(** Bytes which the client takes in the course of [es], and bytes in the queues of the subscriptions below [m]. *)
Definition taken (es : list event) : nat := list_sum (map (fun e => match e with Drain n => n | _ => 0 end) es).
Fixpoint queued (m : nat) (s : conn) : nat := match m with O => 0 | S i => list_sum (queue (subs s i)) + queued i s end.
(** The server alone: updates are posted and sent. *)
Definition server_only (e : event) : Prop := e = Work \/ exists i n, e = Post i n.

Lemma quiet_iff e : catching_up e <-> quiet e = true.
Proof. split; [intros [-> | [-> | (n & ->)]]; reflexivity|]. destruct e; try discriminate; intros _; [left|right; right|right; left]; eauto. Qed.
Lemma local_iff e : server_only e <-> local e = true.
Proof. split; [intros [-> | (i & n & ->)]; reflexivity|]. destruct e; try discriminate; intros _; [right|left]; eauto. Qed.

(** A client that reads again gets everything: whatever happened before, and in whatever order client and worker proceed, they
    are done after a bounded number of steps, and then nothing is left behind, the client has been given every byte which was in
    the buffer or in a queue, and the server reads requests again. *)
Theorem C110_resumes : forall limit lim s, 0 < limit -> reached limit lim s ->
  exists bound m, (forall i, m <= i -> queue (subs s i) = []) /\
    forall es s', Forall catching_up es -> run limit lim s es = Some s' ->
    length es <= bound /\ ((forall e, catching_up e -> step limit lim s' e = None) -> served s' /\ taken es = tx s + queued m s).
Proof.
  intros limit lim s L (es0 & R0). destruct (run_inside limit lim L es0 0 fresh s (fun i _ => eq_refl) R0) as (m & M).
  exists (weight m s), m. split; [exact M|]. intros es s' Q R. assert (Q' : forallb quiet es = true) by (apply forallb_forall; intros e X; apply quiet_iff; revert X; apply Forall_forall; exact Q).
  destruct (run_weight limit lim L m es s s' M Q' R) as (_ & W). split; [lia|]. intro ST.
  pose proof (run_owed limit lim L m es s s' M Q' R) as OW.
  assert (J : inv limit s') by (eapply inv_run; [exact L|eapply inv_run; [exact L|apply inv_fresh|exact R0]|exact R]).
  assert (T : tasks s' = []). { specialize (ST Work (or_introl eq_refl)). cbn [step] in ST. destruct (tasks s'); [reflexivity|discriminate]. }
  assert (D : due s' = false). { specialize (ST Write (or_intror (or_introl eq_refl))). cbn [step] in ST. destruct (due s'); [discriminate|reflexivity]. }
  assert (X : tx s' = 0). { specialize (ST (Drain (tx s')) (or_intror (or_intror (ex_intro _ _ eq_refl)))). cbn [step] in ST. rewrite Nat.leb_refl, andb_true_r in ST. destruct (tx s'); [reflexivity|discriminate]. }
  destruct (settled limit L s' J T D X) as (R' & B & E).
  split; [split; [exact X|]; split; [exact R'|]; split; [exact B|]; intro i; apply E|].
  assert (QE : forall k, osubs k (subs s') = 0). { induction k as [|k IH]; cbn [osubs]; [reflexivity|]. rewrite IH. destruct (E k) as (-> & _). reflexivity. }
  assert (QQ : forall k, osubs k (subs s) = queued k s). { induction k as [|k IH]; cbn [osubs queued]; [reflexivity|]. now rewrite IH. }
  unfold owed in OW. rewrite QE, QQ, X in OW. unfold taken. change (fun e => match e with Drain n => n | _ => 0 end) with takes. lia.
Qed.
(** Never stuck: as long as something is owed, the client can take bytes or the server has work to do. *)
Theorem C110_never_stuck : forall limit lim s, 0 < limit -> reached limit lim s -> served s \/ exists e s', catching_up e /\ step limit lim s e = Some s'.
Proof.
  intros limit lim s L (es0 & R0). assert (J : inv limit s) by (eapply inv_run; [exact L|apply inv_fresh|exact R0]).
  destruct (tasks s) as [|t r] eqn:T; [|right; exists Work; cbn [step]; rewrite T; eexists; split; [now left|reflexivity]].
  destruct (due s) eqn:D; [right; exists Write; cbn [step]; rewrite D; eexists; split; [right; now left|reflexivity]|].
  destruct (tx s) as [|n] eqn:X.
  - left. destruct (settled limit L s J T D X) as (R' & B & E). split; [exact X|]. split; [exact R'|]. split; [exact B|]. intro i. apply E.
  - right. exists (Drain 1). cbn [step]. rewrite X. eexists. split; [right; right; eauto|reflexivity].
Qed.
(** Replies to requests: a client that asks and does not take the answers is not read from any more.  The buffer never holds more
    than the limit and the replies to one batch of requests. *)
Theorem C110_bounded : forall limit lim B es s, 0 < limit ->
  (forall i n, ~ In (Post i n) es) -> (forall replies, In (Recv replies) es -> list_sum replies <= B) ->
  run limit lim fresh es = Some s -> tx s < limit + B.
Proof.
  intros limit lim B es s L NP SZ R. apply (idle_run limit lim L B es fresh s); [|apply forallb_forall; intros e X; destruct e; try reflexivity; exfalso; exact (NP _ _ X)|exact SZ|cbn; lia|exact R].
  split; [reflexivity|]. split; [reflexivity|]. intros _. exact L.
Qed.
(** A subscription keeps at most as many updates as its queue holds, whatever the client does. *)
Theorem C110_queue : forall limit lim s i, 1 <= lim -> reached limit lim s -> length (queue (subs s i)) <= lim.
Proof.
  intros limit lim s i L (es & R). pose proof (short_run limit lim es fresh s (fun _ => Nat.le_0_l _) R i) as H. lia.
Qed.
(** While the server does not read from a client, a subscription that was not already being sent is held back: posting and the
    worker add nothing to the buffer. *)
Theorem C110_held_partial : forall limit lim s es s', reading s = false -> (forall i, ~ In (TReply i) (tasks s)) ->
  Forall server_only es -> run limit lim s es = Some s' -> tx s' = tx s.
Proof.
  intros limit lim s es s' R T Q RUN. apply (held_run limit lim es s s'); [now split| |exact RUN].
  apply forallb_forall. intros e X. apply local_iff. revert X. apply Forall_forall. exact Q.
Qed.

(** But a client that only subscribes and does not read is never held back: the limit is looked at only when something is read
    from the client.  With one subscription, updates of one byte and a queue of any size, the buffer grows without bound. *)
Theorem C110_subscription_refuted : forall limit lim bound, 1 <= lim ->
  exists es s, Forall server_only es /\ run limit lim fresh es = Some s /\ bound < tx s /\ reading s = true.
Proof.
  intros limit lim bound L.
  assert (H : forall k s, reading s = true -> tasks s = [] -> subs s 0 = {| queue := []; sched := false |} ->
            exists s', run limit lim s (concat (repeat [Post 0 1; Work] k)) = Some s' /\ tx s' = tx s + k /\ reading s' = true).
  { induction k as [|k IH]; intros s R T Q; [exists s; cbn; repeat split; auto; lia|].
    cbn [repeat concat app run step]. unfold post, maybe_reply. cbn [subs set_sub queue sched Nat.eqb]. rewrite Q. cbn [queue sched length app].
    destruct (0 <? lim); cbn [app removelast negb andb tasks set_tasks set_sub]; rewrite T; cbn [app tasks set_sub set_tasks reading]; rewrite R;
      unfold do_reply; cbn [subs set_sub set_tasks Nat.eqb queue negb];
      (match goal with |- exists s', run _ _ ?x _ = _ /\ _ => destruct (IH x) as (s' & A & B & C); [exact R|reflexivity|reflexivity|];
         exists s'; split; [exact A|]; split; [|exact C]; rewrite B; cbn [tx set_tx set_sub set_tasks]; lia end). }
  destruct (H (S bound) fresh eq_refl eq_refl eq_refl) as (s' & A & B & C). exists (concat (repeat [Post 0 1; Work] (S bound))), s'.
  split; [|split; [exact A|split; [cbn [tx fresh] in B; lia|exact C]]].
  clear. induction (S bound) as [|k IH]; cbn; [constructor|]. constructor; [right; eauto|]. constructor; [now left|exact IH].
Qed.
(** Nor is a subscription held back that is being sent when the server stops reading: it goes on as long as its queue does not
    become empty, and posting can see to that. *)
Theorem C110_sending_refuted : forall limit lim bound, 0 < limit -> 2 <= lim ->
  exists es0 s0 es s, run limit lim fresh es0 = Some s0 /\ reading s0 = false /\
    Forall server_only es /\ run limit lim s0 es = Some s /\ bound < tx s /\ reading s = false.
Proof.
  intros limit lim bound L0 L.
  assert (H : forall k s, reading s = false -> tasks s = [TReply 0] -> subs s 0 = {| queue := [1]; sched := true |} ->
            exists s', run limit lim s (concat (repeat [Post 0 1; Work] k)) = Some s' /\ tx s' = tx s + k /\ reading s' = false).
  { induction k as [|k IH]; intros s R T Q; [exists s; cbn; repeat split; auto; lia|].
    cbn [repeat concat app run step]. unfold post, maybe_reply. cbn [subs set_sub queue sched Nat.eqb]. rewrite Q. cbn [queue sched length app].
    destruct (Nat.ltb_spec 1 lim) as [_|X]; [|lia]. cbn [app negb andb tasks set_tasks set_sub]. rewrite T. unfold do_reply. cbn [subs set_sub set_tasks set_tx Nat.eqb queue negb tasks app].
    match goal with |- exists s', run _ _ ?x _ = _ /\ _ => destruct (IH x) as (s' & A & B & C); [exact R|reflexivity|reflexivity|] end.
    exists s'. split; [exact A|]. split; [|exact C]. rewrite B. cbn [tx set_tx set_sub set_tasks]. lia. }
  assert (S0 : exists s0, run limit lim fresh [Post 0 1; Post 0 1; Work; Recv [limit]] = Some s0 /\ reading s0 = false /\ tasks s0 = [TReply 0] /\ subs s0 0 = {| queue := [1]; sched := true |}).
  { cbn [run step]. unfold post, maybe_reply. cbn [subs set_sub queue sched Nat.eqb fresh length app negb andb]. destruct (Nat.ltb_spec 0 lim) as [_|X]; [|lia].
    cbn [subs set_sub set_tasks queue sched Nat.eqb length app negb andb tasks reading]. destruct (Nat.ltb_spec 1 lim) as [_|X]; [|lia].
    cbn [subs set_sub set_tasks queue sched Nat.eqb length app negb andb tasks reading]. unfold do_reply. cbn [subs set_sub set_tasks set_tx queue sched Nat.eqb length app negb andb tasks reading tx].
    cbn [tasks fresh app reading tx subs queue Nat.eqb set_sub set_tasks set_tx negb].
    match goal with |- context [if ?b then set_reading false _ else _] => assert (E : b = true) by (apply Nat.leb_le; cbn; lia); rewrite E end.
    eexists. split; [reflexivity|]. repeat split. }
  destruct S0 as (s0 & R0 & RD & T0 & Q0). destruct (H (S bound) s0 RD T0 Q0) as (s' & A & B & C).
  exists [Post 0 1; Post 0 1; Work; Recv [limit]], s0, (concat (repeat [Post 0 1; Work] (S bound))), s'.
  split; [exact R0|]. split; [exact RD|]. split; [|split; [exact A|split; [lia|exact C]]].
  clear. induction (S bound) as [|k IH]; cbn; [constructor|]. constructor; [right; eauto|]. constructor; [now left|exact IH].
Qed.

(** A limit of 10 bytes: the client asks, takes nothing and is not read from; an update for it is held back, then a second one.  It
    takes 8 of 13 bytes, which brings the server to send one update and to go on. *)
Definition seen (s : conn) := (tx s, reading s, backlog s, queue (subs s 0)).
Definition slow : list event := [Recv [6; 7]; Post 0 3; Work; Post 0 4].
Example C110_satisfiable : option_map seen (run 10 4 fresh slow) = Some (13, false, [0], [3; 4]).
Proof. vm_compute. reflexivity. Qed.
Example C110_catches_up : option_map seen (run 10 4 fresh (slow ++ [Drain 8; Write])) = Some (8, true, [], [4]) /\
  option_map seen (run 10 4 fresh (slow ++ [Drain 8; Write; Work; Drain 12; Write])) = Some (0, true, [], []).
Proof. split; vm_compute; reflexivity. Qed.
(** The hypotheses of [C110_held_partial] hold there, and of [C110_bounded] for the first of these events. *)
Example C110_held_satisfiable : match run 10 4 fresh slow with Some s => (reading s, tasks s) = (false, []) | None => False end.
Proof. vm_compute. reflexivity. Qed.

Print Assumptions C110_resumes.
Print Assumptions C110_never_stuck.
Print Assumptions C110_bounded.
Print Assumptions C110_queue.
Print Assumptions C110_held_partial.
Print Assumptions C110_subscription_refuted.
Print Assumptions C110_sending_refuted.
