(** Properties of client subscriptions (C36, C63, C64, C65). *)
From Coq Require Import List Bool Arith Lia.
From Verif Require Import ClientMonModel ClientMonSpec ClientMonProofs ClientMonProofs2 ClientMonProofs3.
Import ListNotations.

Section Props.
  Context {V : Type}.
  Variable assign : V -> V -> V.
  Variable g : config.
  Notation run := (run V assign g). Notation new := (new_sub V).
  (** a new subscription, after the events [es]; what it sent, and told its user *)
  Definition after (es : list (event V)) : sub V := fst (run new es).
  Definition told (es : list (event V)) : list (out V) := snd (run new es).
  Definition happened (es : list (event V)) : list (entry V) := arrived V assign g new es.

  (** ** C36 *)
  (** What was popped, followed by the queue, is all that happened, in order, but that updates may have been merged
      into the update before.  [calm]: the user's onInit function does not throw. *)
  Theorem C36_order es : Forall (calm V) es -> merged V assign (happened es) (popped V (told es) ++ queue V (after es)).
  Proof. intros C. exact (I_merge _ _ _ _ _ (I_reach V assign g es C)). Qed.
  (** While events are queued, the callback was invoked after pop() last found the queue empty, or it is just about to be. *)
  Theorem C36_wake es : Forall (calm V) es -> queue V (after es) <> [] ->
    cancelled V (after es) = true \/ calling V (after es) = true \/ awake V (told es).
  Proof.
    intros C Q. pose proof (I_reach V assign g es C) as H. apply (I_wake _ _ _ _ _ H).
    destruct (need_notify V (fst (run new es))) eqn:N; [|auto]. destruct (I_need _ _ _ _ _ H N); [contradiction|auto].
  Qed.
  (** So with no callback outstanding, everything was seen. *)
  Theorem C36_all_seen es : Forall (calm V) es -> cancelled V (after es) = false -> calling V (after es) = false -> ~ awake V (told es) ->
    merged V assign (happened es) (popped V (told es)).
  Proof.
    intros C A B N. destruct (queue V (after es)) eqn:Q.
    - pose proof (C36_order es C) as X. rewrite Q, app_nil_r in X. exact X.
    - destruct (C36_wake es C) as [X|[X|X]]; congruence.
  Qed.
  (** No more callbacks than pops which found nothing, plus one. *)
  Theorem C36_callbacks es : Forall (calm V) es -> count V (is_callback V) (told es) <= 1 + count V (is_empty V) (told es).
  Proof. intros C. pose proof (I_cb _ _ _ _ _ (I_reach V assign g es C)). unfold told. lia. Qed.
  (** An outstanding callback is invoked as soon as the worker goes on. *)
  Theorem C36_called es : calling V (after es) = true -> cancelled V (after es) = false -> told (es ++ [Call V]) = told es ++ [Callback V].
  Proof.
    unfold after, told. intros A B. rewrite run_app. destruct (run new es) as [s o]. cbn [fst snd] in *. cbn. rewrite A. unfold call. rewrite B. reflexivity.
  Qed.
  (** None after cancel(). *)
  Theorem C36_cancelled es es' : calling V (after es) = false -> exists o, told (es ++ Cancel V :: es') = told es ++ o /\ ~ In (Callback V) o.
  Proof.
    unfold after, told. intros A. rewrite run_app. destruct (run new es) as [s o]. cbn [fst snd] in *. destruct (run s (Cancel V :: es')) as [s2 o2] eqn:R.
    exists o2. split; [reflexivity|]. cbn [ClientMonModel.run] in R. unfold step in R. rewrite A in R.
    destruct (cancel V g s) as [s1 o1] eqn:C. pose proof (cancelled_run V assign g es' s1) as N. destruct (run s1 es') as [s3 o3]. injection R as <- <-.
    assert (K : cancelled V s1 = true) by (unfold cancel in C; destruct (st V s); injection C as <- <-; reflexivity).
    specialize (N K). cbn [snd] in N. rewrite in_app_iff. intros [X|X]; [|contradiction].
    unfold cancel in C; destruct (st V s); injection C as <- <-; (destruct X as [X|[]] || destruct X); discriminate.
  Qed.
  (** pop() takes the oldest event. *)
  Theorem C36_pop es : told (es ++ [Pop V]) = told es ++ [match queue V (after es) with e :: _ => Popped V e | [] => PopEmpty V end] /\
    queue V (after (es ++ [Pop V])) = tl (queue V (after es)).
  Proof.
    unfold after, told. rewrite run_app. destruct (run new es) as [s o]. cbn [fst snd]. cbn [ClientMonModel.run step]. unfold pop.
    destruct (queue V s) eqn:Q; cbn [fst snd app tl]; [auto|]. split; [reflexivity|]. apply took_keeps.
  Qed.
  (** doPop() takes the events at the front: one exception, or as many updates as it may and there are; when its
      result tells that the queue was emptied, it was. *)
  Fixpoint updates (q : list (entry V)) : list (entry V) := match q with Data _ v :: q' => Data V v :: updates q' | _ => [] end.
  Definition batch (limit : nat) (q : list (entry V)) : list (entry V) :=
    match q with Exc _ x :: _ => [Exc V x] | _ => firstn limit (updates q) end.
  Lemma loop_popped : forall n first s, first = false \/ n <> 0 ->
    popped V (snd (pop_loop V g n first s)) = match queue V s with Exc _ x :: _ => if first then [Exc V x] else [] | q => firstn n (updates q) end /\
    queue V s = popped V (snd (pop_loop V g n first s)) ++ queue V (fst (pop_loop V g n first s)).
  Proof.
    induction n as [|n IH]; intros first s N; cbn [pop_loop].
    - destruct N as [-> |N]; [|congruence]. cbn. destruct (queue V s) as [|[v|x] q]; auto.
    - destruct (queue V s) as [|[v|x] q] eqn:Q; [auto| |destruct first; cbn; rewrite ?Q; auto; split; [reflexivity|f_equal; symmetry; apply took_keeps]].
      destruct (took_keeps V g q s) as (_ & _ & _ & _ & _ & T). specialize (IH false (took V g q s) (or_introl eq_refl)). rewrite T in IH.
      destruct (pop_loop V g n false (took V g q s)) as [s' o]. cbn [fst snd] in *. destruct IH as (A & B). cbn. split.
      + fold (popped V o). rewrite A. f_equal. destruct q as [|[w|x] q']; try reflexivity. cbn [updates]. rewrite firstn_nil. reflexivity.
      + fold (popped V o). rewrite <- B. reflexivity.
  Qed.
  Theorem C36_batch es limit : let n := if limit =? 0 then queue_size g else limit in 0 < n ->
    popped V (told (es ++ [PopMany V limit])) = popped V (told es) ++ batch n (queue V (after es)) /\
    queue V (after es) = batch n (queue V (after es)) ++ queue V (after (es ++ [PopMany V limit])).
  Proof.
    cbv zeta. set (n := if limit =? 0 then _ else _). intros N. unfold after, told. rewrite run_app. destruct (run new es) as [s o]. cbn [fst snd]. cbn [ClientMonModel.run step].
    unfold pop_many. fold n. destruct (loop_popped n true s) as (A & B); [right; lia|]. destruct (pop_loop V g n true s) as [s' o']. cbn [fst snd] in *.
    rewrite !popped_app. cbn. rewrite app_nil_r. assert (E : popped V o' = batch n (queue V s)) by (rewrite A; unfold batch; destruct (queue V s) as [|[v|x] q]; reflexivity).
    rewrite <- E. auto.
  Qed.
  Lemma loop_false : forall n first s, In (Batch V false) (snd (pop_loop V g n first s)) -> (need_notify V s = true -> queue V s = []) -> queue V (fst (pop_loop V g n first s)) = [].
  Proof.
    induction n as [|n IH]; intros first s X N; cbn [pop_loop] in *.
    - cbn in *. destruct X as [X|[]]. injection X as X. apply N. destruct (need_notify V s); [reflexivity|discriminate].
    - destruct (queue V s) as [|[v|x] q] eqn:Q; [exact Q| |].
      + specialize (IH false (took V g q s)). destruct (took_keeps V g q s) as (_ & T2 & _ & _ & _ & T6). rewrite T2, T6 in IH.
        destruct (pop_loop V g n false (took V g q s)) as [s' o]. cbn [fst snd] in *. destruct X as [X|X]; [discriminate|]. apply IH; [exact X|]. intros Y. specialize (N Y). discriminate.
      + destruct first; cbn in *; [destruct X as [X|[]]; discriminate|]. destruct X as [X|[]]. injection X as X. rewrite Q. apply N. destruct (need_notify V s); [reflexivity|discriminate].
  Qed.
  Theorem C36_batch_emptied es limit : Forall (calm V) es -> st V (after es) <> Dead ->
    In (Batch V false) (snd (step V assign g (after es) (PopMany V limit))) -> queue V (after (es ++ [PopMany V limit])) = [].
  Proof.
    intros C D H. pose proof (I_reach V assign g es C) as J. unfold after, told in *. rewrite run_app. destruct (run new es) as [s o]. cbn [fst snd] in *.
    cbn [ClientMonModel.run step] in *. unfold pop_many in *.
    pose proof (loop_false (if limit =? 0 then queue_size g else limit) true s H) as L. destruct (pop_loop V g _ true s) as [s' o'] eqn:P. cbn [fst snd] in *.
    apply L. intros N. destruct (I_need _ _ _ _ _ J N) as [X|X]; [exact X|]. unfold dead in X. destruct (st V s); congruence.
  Qed.

  (** ** C63 *)
  (** Pipelining does not stall: when the server may send no more and nothing is queued, an
      acknowledgement is due, and it is for a number of updates. *)
  Theorem C63_no_stall s : pipeline g = true -> 1 <= ack_at g <= queue_size g -> served V assign g s 0 -> st V s = Idle \/ st V s = Running -> queue V s = [] ->
    timer V s = true /\ (calling V s = false -> exists n, 1 <= n /\ snd (step V assign g s (Tick V)) = [SentAck V n]).
  Proof.
    intros P A S ST Q. destruct (F_served V assign g P s 0 S) as [B C D E]. rewrite Q in *. cbn [length] in *.
    assert (L : live (st V s) = true) by (destruct ST as [-> | ->]; reflexivity). specialize (C L). destruct (D L) as [T|[T|T]]; [|lia|lia].
    split; [exact T|]. intros CL. exists (unack V s). split; [lia|]. unfold step. rewrite CL, T. unfold tick. cbn [snd].
    replace (unack V s =? 0) with false by (symmetry; apply Nat.eqb_neq; lia). rewrite P. destruct ST as [-> | ->]; reflexivity.
  Qed.
  (** Without reconnects, and without Connected events, no more than [queue_size] events are queued before the subscription ends. *)
  Theorem C63_window_partial s w : pipeline g = true -> mask_conn g = true -> served_once V assign g s w ->
    st V s = Creating \/ st V s = Idle \/ st V s = Running -> length (queue V s) + w <= queue_size g.
  Proof.
    intros P M S ST. destruct (G_once V assign g P M s w S) as [A _ _ _ _]. assert (L : live (st V s) = true) by (destruct ST as [-> |[-> | ->]]; reflexivity). specialize (A L). lia.
  Qed.
  (** Nothing is acknowledged twice, or before it was popped: the acknowledgements sent, and the one to be sent, are for what was popped. *)
  Theorem C63_acked es : pipeline g = true -> acked V (told es) + unack V (after es) = length (popped V (told es)).
  Proof.
    intros P. refine (acked_reach V assign g P es).
  Qed.

  (** ** C64 *)
  Theorem C64_alternate es : mask_conn g = false -> mask_discon g = false -> Forall (calm V) es ->
    alternate V false (filter (conn_event V) (popped V (told es) ++ queue V (after es))).
  Proof. intros A B C. rewrite (merged_conns V assign _ _ (C36_order es C)). apply Alt_reach; assumption. Qed.
  Theorem C64_masked es x : Forall (calm V) es ->
    x = Connected /\ mask_conn g = true \/ x = Disconnect /\ mask_discon g = true -> ~ In (Exc V x) (popped V (told es) ++ queue V (after es)).
  Proof.
    intros C M X. assert (Y : In (Exc V x) (filter (conn_event V) (popped V (told es) ++ queue V (after es)))) by (apply filter_In; split; [exact X|destruct M as [(-> & _)|(-> & _)]; reflexivity]).
    rewrite (merged_conns V assign _ _ (C36_order es C)) in Y. apply filter_In in Y as (Y & _). apply (masked_arrived V assign g es new x M Y).
  Qed.

  (** ** C65 *)
  (** With a server which keeps to the protocol, the client does not end the connection on account of a
      subscription, if it was not cancelled before INIT was answered. *)
  Theorem C65_monitor_partial s asked accepted e :
    honest V assign g (fun s e => e = Cancel V -> st V s <> Creating) s asked accepted -> allowed V asked accepted e -> ~ In (HangUp V) (snd (step V assign g s e)).
  Proof. intros H A. eapply hon_no_hang; [eapply hon_step; exact H|exact A]. Qed.
End Props.

Lemma ack_threshold_range q p c : 1 <= q -> 1 <= ack_threshold q p c <= q.
Proof. intros Q. unfold ack_threshold. match goal with |- context [Nat.min ?x q] => generalize x end. lia. Qed.

(** *** Counterexamples *)
Section Refuted.
  Notation plus := Nat.add.
  Definition cfg (pipe mc md : bool) (q : nat) := {| pipeline := pipe; autostart := true; mask_conn := mc; mask_discon := md; queue_size := q; ack_at := ack_threshold q None None |}.

  (** An error of the user's onInit function ends the subscription, but the user is not told. *)
  Theorem C36_init_error_refuted : exists es : list (event nat), let g := cfg false true false 4 in
    st nat (after plus g es) = Done /\ happened plus g es = [Exc nat Failed] /\ calling nat (after plus g es) = false /\ cancelled nat (after plus g es) = false /\
    told plus g es = [SentInit nat None; SentDestroy nat] /\ queue nat (after plus g es) = [].
  Proof. exists [Build nat true; Create nat; InitReply nat true true]. cbv zeta. repeat split. Qed.

  Fixpoint go (g : config) (s : sub nat) (w : nat) (es : list (event nat)) : sub nat * nat :=
    match es with
    | [] => (s, w)
    | e :: es' => go g (fst (step nat plus g s e)) (fold_left (sent_window nat) (snd (step nat plus g s e)) (if takes_update nat s e then pred w else w)) es'
    end.
  Definition politeb (s : sub nat) (w : nat) (e : event nat) : bool :=
    if takes_update nat s e then (0 <? w) && (match e with Update _ _ _ None => false | _ => true end) else true.
  Fixpoint all_polite (g : config) (s : sub nat) (w : nat) (es : list (event nat)) : bool :=
    match es with
    | [] => true
    | e :: es' => politeb s w e && all_polite g (fst (step nat plus g s e)) (fold_left (sent_window nat) (snd (step nat plus g s e)) (if takes_update nat s e then pred w else w)) es'
    end.
  Lemma politeb_ok : forall s w e, politeb s w e = true -> polite nat s w e.
  Proof.
    intros s w e H T. unfold politeb in H. rewrite T in H. apply andb_prop in H as (A & B). apply Nat.ltb_lt in A. split; [exact A|]. intros d E X. subst. discriminate.
  Qed.
  Lemma go_served : forall g es s w, served nat plus g s w -> all_polite g s w es = true -> served nat plus g (fst (go g s w es)) (snd (go g s w es)).
  Proof.
    induction es as [|e es IH]; intros s w S H; cbn [go fst snd all_polite] in *; [exact S|]. apply andb_prop in H as (A & B). apply IH; [|exact B]. constructor; [exact S|]. apply politeb_ok. exact A.
  Qed.
  Lemma go_once : forall g es s w, served_once nat plus g s w -> all_polite g s w es = true -> Forall (fun e => e <> Lost nat) es -> served_once nat plus g (fst (go g s w es)) (snd (go g s w es)).
  Proof.
    induction es as [|e es IH]; intros s w S H N; cbn [go fst snd all_polite] in *; [exact S|]. apply andb_prop in H as (A & B). inversion N; subst. apply IH; [|exact B|assumption]. constructor; [exact S| |assumption]. apply politeb_ok. exact A.
  Qed.
  Definition upd (n : nat) : event nat := Update nat false true (Some n).
  (** The acknowledgements are not for updates only: a Connected event popped counts, so that the server may send more
      than [queue_size] updates, and more are queued. *)
  Theorem C63_refuted : let g := cfg true false true 2 in exists s w, served_once nat plus g s w /\ st nat s = Running /\ length (queue nat s) + w = 3 /\ queue_size g = 2.
  Proof.
    cbv zeta. set (g := cfg true false true 2).
    set (es := [Build nat true; Create nat; Call nat; Pop nat; InitReply nat true false; Tick nat; upd 1; upd 2; upd 3]).
    exists (fst (go g (new_sub nat) 0 es)), (snd (go g (new_sub nat) 0 es)). split; [|vm_compute; auto].
    apply go_once; [constructor|reflexivity|repeat constructor; discriminate].
  Qed.
  (** A threshold given as "1%" of a queue of 200 is taken as 200. *)
  Theorem C63_percent_refuted : ack_threshold 200 (Some 1) None = 200 /\ ack_threshold 200 (Some 50) None = 200.
  Proof. split; reflexivity. Qed.
  (** Finished is reported even though disconnects are masked. *)
  Theorem C64_masked_finished_refuted : exists es : list (event nat), let g := cfg false true true 4 in
    queue nat (after plus g es) = [Exc nat Finished] /\ mask_discon g = true.
  Proof. exists [Build nat true; Create nat; InitReply nat true false; Update nat true true None]. cbv zeta. repeat split. Qed.
  (** Cancelled before INIT was answered, the answer makes the client end the connection, which other channels use. *)
  Theorem C65_refuted : let g := cfg false true true 4 in exists s, honest nat plus g (fun _ _ => True) s true false /\ In (HangUp nat) (snd (step nat plus g s (InitReply nat true false))).
  Proof.
    cbv zeta. set (g := cfg false true true 4).
    exists (fst (run nat plus g (new_sub nat) [Build nat true; Create nat; Cancel nat])). split; [|vm_compute; auto].
    pose proof (honest_new nat plus g (fun _ _ => True)) as H.
    pose proof (honest_step nat plus g _ _ _ _ (Build nat true) H Logic.I Logic.I) as H1. pose proof (honest_step nat plus g _ _ _ _ (Create nat) H1 Logic.I Logic.I) as H2. pose proof (honest_step nat plus g _ _ _ _ (Cancel nat) H2 Logic.I Logic.I) as H3.
    exact H3.
  Qed.

  (** *** The hypotheses are met *)
  Definition es1 : list (event nat) :=
    [Build nat true; Create nat; Call nat; InitReply nat true false; Pop nat; Pop nat; upd 1; Call nat; upd 2; Pop nat; upd 4; upd 8; PopMany nat 3; Lost nat; Call nat; Pop nat; Create nat].
  Example C36_example : let g := cfg false false false 2 in
    Forall (calm nat) es1 /\ popped nat (told plus g es1) = [Exc nat Connected; Data nat 1; Data nat 2; Data nat 12; Exc nat Disconnect] /\
    queue nat (after plus g es1) = [Exc nat Connected] /\ happened plus g es1 = [Exc nat Connected; Data nat 1; Data nat 2; Data nat 4; Data nat 8; Exc nat Disconnect; Exc nat Connected] /\
    calling nat (after plus g es1) = false /\ count nat (is_callback nat) (told plus g es1) = 3 /\ count nat (is_empty nat) (told plus g es1) = 2.
  Proof. cbv zeta. split; [repeat constructor|]. repeat split. Qed.
  Example C63_example : let g := cfg true true true 2 in exists s, served nat plus g s 0 /\ st nat s = Running /\ queue nat s = [] /\ calling nat s = false /\ 1 <= ack_at g <= queue_size g /\ served_once nat plus g s 0.
  Proof.
    cbv zeta. set (g := cfg true true true 2). set (es := [Build nat true; Create nat; InitReply nat true false; upd 1; Call nat; upd 2; Pop nat; Pop nat; Pop nat]).
    exists (fst (go g (new_sub nat) 0 es)). split; [change 0 with (snd (go g (new_sub nat) 0 es)) at 2; apply go_served; [constructor|reflexivity]|].
    repeat split; try (vm_compute; auto; fail). change 0 with (snd (go g (new_sub nat) 0 es)) at 2. apply go_once; [constructor|reflexivity|repeat constructor; discriminate].
  Qed.
  Example C65_example : let g := cfg false true true 4 in exists s, honest nat plus g (fun s e => e = Cancel nat -> st nat s <> Creating) s false true /\ st nat s = Running /\
    snd (step nat plus g s (Cancel nat)) = [SentDestroy nat] /\ allowed nat false true (upd 1).
  Proof.
    cbv zeta. set (g := cfg false true true 4).
    exists (fst (run nat plus g (new_sub nat) [Build nat true; Create nat; InitReply nat true false])). split; [|vm_compute; auto].
    pose proof (honest_new nat plus g (fun s e => e = Cancel nat -> st nat s <> Creating)) as H.
    pose proof (honest_step nat plus g _ _ _ _ (Build nat true) H Logic.I ltac:(discriminate)) as H1. pose proof (honest_step nat plus g _ _ _ _ (Create nat) H1 Logic.I ltac:(discriminate)) as H2.
    exact (honest_step nat plus g _ _ _ _ (InitReply nat true false) H2 eq_refl ltac:(discriminate)).
  Qed.
End Refuted.

Print Assumptions C36_order.
Print Assumptions C36_wake.
Print Assumptions C36_all_seen.
Print Assumptions C36_callbacks.
Print Assumptions C36_called.
Print Assumptions C36_cancelled.
Print Assumptions C36_pop.
Print Assumptions C36_batch.
Print Assumptions C36_batch_emptied.
Print Assumptions C63_no_stall.
Print Assumptions C63_window_partial.
Print Assumptions C63_acked.
Print Assumptions C64_alternate.
Print Assumptions C64_masked.
Print Assumptions C65_monitor_partial.
Print Assumptions C36_init_error_refuted.
Print Assumptions C63_refuted.
Print Assumptions C63_percent_refuted.
Print Assumptions C64_masked_finished_refuted.
Print Assumptions C65_refuted.
