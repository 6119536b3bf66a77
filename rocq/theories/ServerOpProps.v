(** Theorems about the channels and operations of a server connection. *)
From Coq Require Import List Bool Arith NArith Lia ZifyBool ZifyNat ZifyN.
From Verif Require Import ServerOpModel ServerOpSpec ServerOpProofs ServerOpProofs2 ServerOpProofs3.
Import ListNotations.

(** ** C32: at most one reply to each execute request *)
(** Every reply answers a request which was accepted, not answered and not cancelled
    before; so there are no more replies than requests. *)
Theorem C32_at_most_one tr i :
  answered i false (snd (run new_conn tr)) /\
  count (is_exec_reply i) (snd (run new_conn tr)) <= count (is_started i) (snd (run new_conn tr)).
Proof.
  pose proof (keeps_run i tr new_conn) as (A & _). assert (E : execing new_conn i = false) by (destruct i; reflexivity). rewrite E in A.
  split; [exact A|]. pose proof (answered_count i _ _ A). cbn in *. lia.
Qed.
(** Nothing is sent after the connection is closed. *)
Theorem C32_after_disconnect tr o : In o (after_down (snd (run new_conn tr))) -> sent o = false.
Proof.
  intros H. pose proof (sent_run tr new_conn) as A. rewrite forallb_forall in A. specialize (A _ H). unfold unsent in A. destruct (sent o); [discriminate|reflexivity].
Qed.
Lemma ended_dead s i : ended s i <-> is_dead s i.
Proof.
  unfold ended, is_dead. destruct (nth_error (objs s) i) as [o|]; split; intros H; try destruct H as (p & X & Y); try discriminate; try contradiction; [eauto|congruence].
Qed.
(** An operation which has ended has no more replies and its handlers are not called. *)
Theorem C32_ended tr1 tr2 i o :
  ended (fst (run new_conn tr1)) i -> In o (snd (run (fst (run new_conn tr1)) tr2)) -> about i o = false.
Proof.
  intros D H. apply ended_dead in D. destruct (WL_reach tr1) as (Hw & _). destruct (hush_run i tr2 _ Hw D) as (A & _).
  rewrite forallb_forall in A. specialize (A _ H). unfold hush in A. destruct (about i o); [discriminate|reflexivity].
Qed.
(** A reply is sent if the request is still waiting for it. *)
Lemma live_alive : forall s i o, W s -> L s -> nth_error (objs s) i = Some o -> o_st o <> Dead -> alive s i o = true.
Proof.
  intros s i o Hw [A B C] E D. unfold alive. apply orb_true_iff. left. apply holds_in. exists (o_ioid o). apply get_in. exact (A _ _ E D).
Qed.
Lemma live_reply : forall tr s i o, s = fst (run new_conn tr) -> nth_error (objs s) i = Some o -> o_st o <> Dead ->
  alive s i o && chan_alive s (o_chan o) && up s = true.
Proof.
  intros tr s i o -> E D. destruct (WL_reach tr) as (Hw & HL). pose proof (K_reach tr) as HK.
  rewrite (live_alive _ _ _ Hw HL E D). pose proof (l_up _ HL _ _ E D) as U. rewrite U.
  destruct (l_h _ HL _ _ E D I) as (ch & C & _). unfold chan_alive. rewrite (k_all _ _ HK U); [reflexivity|]. eapply nth_lt; exact C.
Qed.
Theorem C32_reply_sent tr i h o :
  let s := fst (run new_conn tr) in
  nth_error (objs s) i = Some o -> o_st o = Executing -> o_kind o <> Info ->
  snd (step s (Fail i h)) = [SentExec i false h] /\
  (forall v, reply_ok o v = true -> snd (step s (Reply i h v)) = [SentExec i true h]).
Proof.
  intros s E X K. assert (A : alive s i o && chan_alive s (o_chan o) && up s = true) by (eapply live_reply; [reflexivity|exact E|congruence]).
  cbn [step]. unfold is_info. rewrite E. assert (Z : (match o_kind o with Info => true | _ => false end) = false) by (destruct (o_kind o); congruence || reflexivity).
  rewrite Z. unfold gpr_reply. rewrite E, A, X. split; [reflexivity|]. intros v V. rewrite V. reflexivity.
Qed.
(** C32 does not hold of the handle: an ExecOp kept from an execution which was
    cancelled answers the next one. *)
Theorem C32_stale_refuted :
  exists tr i, ~ own_handle i 0 (snd (run new_conn tr)).
Proof.
  exists [Create 1 (Some (true, true, true)); Init Rpc 117768961 5; Exec Rpc 5 false false; Cancel 117768961 5; Exec Rpc 5 false false; Reply 0 1 NoValue], 0.
  intros H. vm_compute in H. repeat match goal with X : _ /\ _ |- _ => destruct X end.
  match goal with X : 0 = 0 -> 1 = 2 |- _ => discriminate (X eq_refl) end.
Qed.
(** And an RPC execute request with the GET bit is accepted, while no handler is called for it. *)
Theorem C32_unanswered_refuted :
  exists tr i, In (Started i false HNone) (snd (run new_conn tr)).
Proof.
  exists [Create 1 (Some (true, true, true)); Init Rpc 117768961 5; Exec Rpc 5 true false], 0. vm_compute. tauto.
Qed.
Example C32_ex :
  let tr := [Create 1 (Some (true, true, true)); Init Put 117768961 5; OnPut 0; Connect 0 true true; Exec Put 5 false false; Reply 0 1 NoValue; Reply 0 1 NoValue; Exec Put 5 false false; Drop; Fail 0 2] in
  count (is_exec_reply 0) (snd (run new_conn tr)) = 1 /\ count (is_started 0) (snd (run new_conn tr)) = 2 /\
  In Down (snd (run new_conn tr)) /\ ended (fst (run new_conn tr)) 0.
Proof. vm_compute. auto 20. Qed.
Example C32_reply_sent_ex :
  let s := fst (run new_conn [Create 1 (Some (true, true, true)); Init Put 117768961 5; OnPut 0; Connect 0 true true; Exec Put 5 false false]) in
  exists o, nth_error (objs s) 0 = Some o /\ o_st o = Executing /\ o_kind o <> Info /\ reply_ok o NoValue = true.
Proof. eexists. vm_compute. split; [reflexivity|]. repeat split; discriminate. Qed.

(** ** C33: onClose *)
(** onClose is called at most once, only for an operation which has ended and has
    been given that callback.  An operation which ended, but not together with its own
    reply, has had its onClose called and its request ID released.  When the
    connection is closed every operation has ended.

    Missing: an operation which ends together with its reply, see C33_refuted. *)
Theorem C33_partial tr i :
  let s := fst (run new_conn tr) in let l := snd (run new_conn tr) in
  count (is_close i) l <= 1 /\
  (count (is_close i) l = 1 -> In (CloseSet i) l /\ ended s i) /\
  (ended s i -> ~ ends_with_reply i l ->
     (In (CloseSet i) l -> count (is_close i) l = 1) /\
     forall o, nth_error (objs s) i = Some o -> get (o_ioid o) (by_ioid s) <> Some i) /\
  (up s = false -> i < length (objs s) -> ended s i).
Proof.
  intros s l. pose proof (acct_reach tr) as A. destruct (WL_reach tr) as (Hw & HL). fold s l in A, Hw, HL.
  split; [|split; [|split]].
  - destruct (a_cases _ _ A i) as [(B & _)|(B & _)]; lia.
  - intros C. destruct (a_cases _ _ A i) as [(B & _)|(_ & B & _ & D & _)]; [lia|]. split; [exact B|]. apply ended_dead. exact D.
  - intros D N. apply ended_dead in D. destruct (a_dead _ _ A i D) as [X|((_ & G) & ST)]; [contradiction|]. split.
    + intros C. destruct (a_cases _ _ A i) as [(_ & B)|(B & _)]; [|exact B]. apply B in C. congruence.
    + intros o E Q. unfold live_in in G. rewrite E in G. unfold alive in G. apply orb_false_iff in G as (G & _).
      apply get_in in Q. assert (H : holds i (by_ioid s) = true) by (apply holds_in; eauto). congruence.
  - intros U N. apply ended_dead. apply nth_error_Some in N. destruct (nth_error (objs s) i) as [o|] eqn:E; [|congruence].
    exists o. split; [exact E|]. destruct (o_st o) eqn:ST; try reflexivity; exfalso; pose proof (l_up _ HL i o E ltac:(congruence)); congruence.
Qed.
(** An operation which is still running keeps its request ID: no two share one. *)
Theorem C33_running_distinct tr i j oi oj :
  let s := fst (run new_conn tr) in
  nth_error (objs s) i = Some oi -> nth_error (objs s) j = Some oj -> o_st oi <> Dead -> o_st oj <> Dead ->
  o_ioid oi = o_ioid oj -> i = j.
Proof.
  intros s A B C D E. destruct (WL_reach tr) as (_ & HL). pose proof (l_c _ HL _ _ A C) as X. pose proof (l_c _ HL _ _ B D) as Y. congruence.
Qed.
(** A request ID which is not in use is accepted on a channel which exists. *)
Theorem C33_ioid_usable tr sid c ioid :
  let s := fst (run new_conn tr) in
  up s = true -> get sid (by_sid s) = Some c -> get ioid (by_ioid s) = None ->
  forall k, k <> Info -> In (Opened (length (objs s))) (snd (step s (Init k sid ioid))) /\ up (fst (step s (Init k sid ioid))) = true.
Proof.
  intros s U G1 G2 k K. cbn [step]. rewrite U. unfold init. rewrite G1, G2. cbn zeta.
  pose proof (fun k => up_add (new_op k Creating c ioid) s) as A.
  destruct k; try congruence; try (split; [left; reflexivity|cbn [fst]; rewrite A; exact U]).
  pose proof (gpr_frame (length (objs s)) 0 (Some NoValue) (add_op (new_op Rpc Creating c ioid) s)) as (B & _).
  destruct (gpr_reply _ _ _ _) as [s2 o2]. cbn [fst snd] in *. split; [left; reflexivity|]. rewrite B, A. exact U.
Qed.
(** C33 fails of a request with the destroy bit: once replied the operation has ended,
    its onClose is not called then or when the connection is lost, and a client which
    uses the request ID again is disconnected. *)
Theorem C33_refuted :
  exists tr tr', let s := fst (run new_conn tr) in let l := snd (run new_conn tr) in
    ended s 0 /\ In (CloseSet 0) l /\ count (is_close 0) l = 0 /\
    (exists o, nth_error (objs s) 0 = Some o /\ get (o_ioid o) (by_ioid s) = Some 0) /\
    snd (run s [Init Put 117768961 5]) = Down :: [ChanCloseCb 0] /\
    count (is_close 0) (snd (run new_conn (tr ++ tr'))) = 0 /\ up (fst (run new_conn (tr ++ tr'))) = false.
Proof.
  exists [Create 1 (Some (true, true, true)); Init Put 117768961 5; OnPut 0; OnClose 0; Connect 0 true true; Exec Put 5 false true; Reply 0 1 NoValue], [Drop].
  vm_compute. split; [reflexivity|]. split; [tauto|]. split; [reflexivity|]. split; [eexists; split; reflexivity|]. auto.
Qed.
(** So it does for an INIT the server refuses, and for GET_FIELD. *)
Theorem C33_init_refuted :
  exists tr, let s := fst (run new_conn tr) in let l := snd (run new_conn tr) in
    up s = false /\ ended s 0 /\ ended s 1 /\ In (CloseSet 0) l /\ In (CloseSet 1) l /\ count (is_close 0) l = 0 /\ count (is_close 1) l = 0.
Proof.
  exists [Create 1 (Some (true, true, true)); Init Get 117768961 5; OnClose 0; ConnError 0; GetField 117768961 6; OnClose 1; InfoReply 1 true; Drop].
  vm_compute. tauto.
Qed.
Example C33_ex :
  let tr := [Create 1 (Some (true, true, true)); Init Get 117768961 5; OnClose 0; Connect 0 true true; DestroyReq 117768961 5] in
  let s := fst (run new_conn tr) in let l := snd (run new_conn tr) in
  ended s 0 /\ In (CloseSet 0) l /\ count (is_close 0) l = 1 /\ get 5 (by_ioid s) = None /\ up s = true /\ get 117768961 (by_sid s) = Some 0 /\
  ~ ends_with_reply 0 l.
Proof.
  vm_compute. split; [reflexivity|]. split; [tauto|]. repeat (split; [reflexivity|]).
  intros [H|[(ok & H)|(h & H)]]; repeat destruct H as [H|H]; try discriminate; try contradiction.
Qed.

(** ** C34: identifiers *)
(** The SIDs a server hands out on a connection differ from each other. *)
Theorem C34_sid tr : NoDup (sids (snd (run new_conn tr))).
Proof. apply (k_sids _ _ (K_reach tr)). Qed.
(** A channel which a source claims is made, unless there are 2^32-1 already. *)
Theorem C34_sid_available tr cid h :
  let s := fst (run new_conn tr) in
  up s = true -> length (by_sid s) <> N.to_nat 4294967295 -> exists sid, In (SentCreate cid (Some sid)) (snd (step s (Create cid (Some h)))) /\ (sid < 2 ^ 32)%N.
Proof.
  intros s U N. destruct (WL_reach tr) as (Hw & _). pose proof (k_len _ _ (K_reach tr)) as LE. fold s in Hw, LE.
  cbn [step]. rewrite U. unfold create. destruct (N.eqb_spec (N.of_nat (length (by_sid s))) 4294967295) as [Q|Q]; [exfalso; apply N; lia|].
  destruct (fresh_spec (next_sid s) (map fst (by_sid s)) (w_next _ Hw)) as (id & F & _ & B). { rewrite map_length. unfold W32. lia. }
  rewrite F. destruct h as [[a b] c]. exists id. split; [left; reflexivity|exact B].
Qed.
(** The loops which choose an IOID and a CID on the client end, whatever the value of
    the counter, with an identifier not in use. *)
Theorem C34_ioid next used :
  (next < 2 ^ 32)%N -> (N.of_nat (length used) < 2 ^ 32)%N ->
  exists id next', fresh next used = Some (id, next') /\ ~ In id used /\ (id < 2 ^ 32)%N /\ (next' < 2 ^ 32)%N.
Proof.
  intros A B. destruct (fresh_spec next used A B) as (id & F & N & L). exists id, (succ32 id). split; [exact F|]. split; [exact N|]. split; [exact L|].
  apply succ32_lt.
Qed.
Theorem C34_cid next used :
  (next < 2 ^ 32)%N -> (N.of_nat (length used) < 2 ^ 32)%N ->
  exists id, fresh_cid next used = Some (id, id) /\ ~ In id used /\ (id < 2 ^ 32)%N.
Proof.
  intros A B. destruct (fresh_spec next used A B) as (id & F & N & L). exists id. unfold fresh_cid. rewrite F. auto.
Qed.
(** the counter wraps *)
Example C34_wrap_ex : fresh 4294967295 [4294967295; 0; 1]%N = Some (2, 3)%N.
Proof. reflexivity. Qed.
Example C34_ex :
  let l := snd (run new_conn [Create 1 (Some (true, true, true)); Create 2 None; Create 3 (Some (true, true, true)); DestroyChan 117768961 1; Create 1 (Some (true, true, true))]) in
  length (sids l) = 3.
Proof. reflexivity. Qed.

(** ** C35: closed channels *)
(** When the client destroys, or the server closes, an open channel, every operation
    of the channel has ended, the channel is closed and its onClose was called, once,
    if it has one.

    Missing: requests naming it are still accepted, and it is kept, see C35_refuted. *)
Lemma after_close : forall tr c ch, let s := fst (run new_conn tr) in
  nth_error (chans s) c = Some ch -> c_open ch = true ->
  let s' := fst (chan_cleanup c s) in
  (forall i, on_chan s c i -> ended s' i) /\ (exists ch', nth_error (chans s') c = Some ch' /\ c_open ch' = false).
Proof.
  intros tr c ch s E O s'. destruct (WL_reach tr) as (_ & HL). fold s in HL. split.
  - intros i H. apply ended_dead. exact (proj2 (L_chan_cleanup c s HL) ch E O i H).
  - pose proof (owed_chan_cleanup c s _ (k_owed _ _ (K_reach tr))) as (_ & _ & _ & _ & _ & B). destruct (B (nth_lt _ _ _ _ E)) as (b & M).
    unfold meta in M. rewrite nth_error_map in M. fold s' in M. destruct (nth_error (chans s') c) as [ch'|]; [|discriminate]. exists ch'. split; [reflexivity|].
    cbn in M. unfold mt in M. congruence.
Qed.
Theorem C35_destroyed_partial tr sid cid c ch :
  let s := fst (run new_conn tr) in let s' := fst (step s (DestroyChan sid cid)) in
  up s = true -> get sid (by_sid s) = Some c -> nth_error (chans s) c = Some ch -> c_open ch = true ->
  In (SentDestroy sid cid) (snd (step s (DestroyChan sid cid))) /\
  (forall i, on_chan s c i -> ended s' i) /\ (exists ch', nth_error (chans s') c = Some ch' /\ c_open ch' = false).
Proof.
  intros s s' U G E O. pose proof (after_close tr c ch E O) as A. cbn zeta in A. fold s in A. unfold s'. cbn [step]. rewrite U. unfold destroy_chan. rewrite G.
  destruct (chan_cleanup c s) as [s1 o1]. cbn [fst snd] in *. split; [apply in_app_iff; right; left; reflexivity|exact A].
Qed.
Theorem C35_closed_partial tr c ch :
  let s := fst (run new_conn tr) in let s' := fst (step s (CloseChan c)) in
  up s = true -> nth_error (chans s) c = Some ch -> c_open ch = true ->
  In (SentDestroy (c_sid ch) (c_cid ch)) (snd (step s (CloseChan c))) /\
  (forall i, on_chan s c i -> ended s' i) /\ (exists ch', nth_error (chans s') c = Some ch' /\ c_open ch' = false).
Proof.
  intros s s' U E O. pose proof (after_close tr c ch E O) as A. cbn zeta in A. fold s in A. unfold s'. cbn [step]. unfold close_chan, chan_alive.
  assert (HH : holds c (by_sid s) = true) by exact (k_all _ _ (K_reach tr) U c (nth_lt _ _ _ _ E)). rewrite HH, E, U, O.
  destruct (chan_cleanup c s) as [s1 o1]. cbn [fst snd andb] in *. split; [left; reflexivity|exact A].
Qed.
(** The onClose of a channel is called at most once, and has been called once the
    channel is closed; closing the connection closes them all. *)
Theorem C35_callback_partial tr c ch :
  let s := fst (run new_conn tr) in let l := snd (run new_conn tr) in
  nth_error (chans s) c = Some ch ->
  count (is_chan_close c) l <= 1 /\ (count (is_chan_close c) l = 1 -> In (Claimed c true) l) /\
  (c_open ch = false -> In (Claimed c true) l -> count (is_chan_close c) l = 1) /\
  (up s = false -> c_open ch = false).
Proof.
  intros s l E. destruct (K_reach tr) as [A _ _ _ D _]. fold s l in A, D. specialize (A c). unfold meta in A. rewrite nth_error_map, E in A. cbn [option_map mt] in A.
  unfold mt in A. destruct A as (_ & A1 & A2 & A3). split; [lia|]. split; [|split].
  - intros Q. apply A1. lia.
  - intros Q R. apply A1 in R. rewrite (A3 Q) in R. cbn in R. lia.
  - intros U. destruct (D U c (nth_lt _ _ _ _ E)) as (b & X). unfold meta in X. rewrite nth_error_map, E in X. cbn in X. unfold mt in X. congruence.
Qed.
(** A channel which was destroyed is still in the table: a request naming its SID reaches the handler. *)
Theorem C35_refuted :
  exists tr, let s := fst (run new_conn tr) in
    (exists ch, nth_error (chans s) 0 = Some ch /\ c_open ch = false) /\ holds 0 (by_sid s) = true /\
    snd (run s [Init Rpc 117768961 7; Exec Rpc 7 false false]) = [Opened 0; SentInit 0 true; Started 0 false HRpc].
Proof.
  exists [Create 1 (Some (true, true, true)); DestroyChan 117768961 1]. vm_compute. split; [eexists; split; reflexivity|auto].
Qed.
(** And destroying it again ends none of the operations made since. *)
Theorem C35_again_refuted :
  exists tr, let s := fst (run new_conn tr) in on_chan s 0 0 /\ ~ ended s 0 /\
    In (SentDestroy 117768961 1) (snd (step s (DestroyChan 117768961 1))) /\ ~ ended (fst (step s (DestroyChan 117768961 1))) 0.
Proof.
  exists [Create 1 (Some (true, true, true)); DestroyChan 117768961 1; Init Rpc 117768961 7]. vm_compute.
  split; [reflexivity|]. split; [discriminate|]. split; [auto|discriminate].
Qed.
Example C35_ex :
  let s := fst (run new_conn [Create 1 (Some (true, true, true)); Init Rpc 117768961 7; Init Get 117768961 8]) in
  up s = true /\ get 117768961 (by_sid s) = Some 0 /\ (exists ch, nth_error (chans s) 0 = Some ch /\ c_open ch = true /\ length (c_ops ch) = 2) /\
  on_chan s 0 0 /\ ~ ended s 0 /\ on_chan s 0 1 /\ ~ ended s 1 /\
  snd (step s (CloseChan 0)) = [SentDestroy 117768961 1; ChanCloseCb 0].
Proof. vm_compute. split; [reflexivity|]. split; [reflexivity|]. split; [eexists; repeat split|]. repeat split; discriminate. Qed.

Print Assumptions C32_at_most_one.
Print Assumptions C32_after_disconnect.
Print Assumptions C32_ended.
Print Assumptions C32_reply_sent.
Print Assumptions C32_stale_refuted.
Print Assumptions C32_unanswered_refuted.
Print Assumptions C33_partial.
Print Assumptions C33_running_distinct.
Print Assumptions C33_ioid_usable.
Print Assumptions C33_refuted.
Print Assumptions C33_init_refuted.
Print Assumptions C34_sid.
Print Assumptions C34_sid_available.
Print Assumptions C34_ioid.
Print Assumptions C34_cid.
Print Assumptions C35_destroyed_partial.
Print Assumptions C35_closed_partial.
Print Assumptions C35_callback_partial.
Print Assumptions C35_refuted.
Print Assumptions C35_again_refuted.
