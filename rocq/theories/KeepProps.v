(** C114: an idle connection is kept while the peers can reach each other, and dropped when they cannot. *)
From Coq Require Import ZArith List Bool Lia.
From Verif Require Import KeepModel KeepSpec KeepProofs.
Import ListNotations.
Local Open Scope Z_scope.

(** Client and server with the same timeout, whatever it was configured to be, and a network (with the peers) which takes less than a quarter of it:
    neither closes the connection, however long it lasts, whatever else is sent, and however messages and timers interleave. *)
Theorem C114_same_timeout : forall tmo d t es s, let T := enforce tmo in 0 <= d -> 4 * d < T ->
  run T T (Some d) (init T t) es = Some s -> dropped s = None.
Proof.
  intros tmo d t es s T D0 D R. pose proof (enforce_low tmo) as L. fold T in L. pose proof (period_half T L) as PH. pose proof (period_pos T) as PP. unfold sec in *.
  apply i_up with (tc := T) (d := d). eapply inv_run with (ts := T); [| | |apply inv_init|exact R]; lia.
Qed.
(** Different timeouts: so it is if that of the server is above 15 s and the delay.  Below that, see C114_short_server_refuted. *)
Theorem C114_any_client_partial : forall tmo_c tmo_s d t es s, let tc := enforce tmo_c in let ts := enforce tmo_s in 0 <= d -> 4 * d < tc -> 15 * sec + d < ts ->
  run tc ts (Some d) (init tc t) es = Some s -> dropped s = None.
Proof.
  intros tmo_c tmo_s d t es s tc ts D0 D H R. pose proof (enforce_low tmo_c) as L. fold tc in L. pose proof (period_half tc L) as PH. pose proof (period_pos tc) as PP.
  assert (P15 : echo_period tc <= 15 * sec) by (unfold echo_period, sec; lia). unfold sec in *.
  apply i_up with (tc := tc) (d := d). eapply inv_run with (ts := ts); [| | |apply inv_init|exact R]; lia.
Qed.
(** The settings of the environment are such timeouts. *)
Theorem C114_settings : forall t, exists tmo, configured t = enforce tmo /\ 2 * sec <= configured t.
Proof. intro t. unfold configured. destruct (t <? 0); [exists None|exists (Some (t * 4 / 3))]; (split; [reflexivity|]); [unfold sec; lia|apply enforce_low]. Qed.

(** Whoever receives nothing is rid of the connection when its timeout has passed since it received last, on every history. *)
Theorem C114_noticed : forall tmo_c tmo_s delay t p s es s', let tc := enforce tmo_c in let ts := enforce tmo_s in
  reached tc ts delay t s -> deaf p es -> run tc ts delay s es = Some s' ->
  now s' <= last_of p s + match p with Client => tc | Server => ts end.
Proof.
  intros tmo_c tmo_s delay t p s es s' tc ts (e0 & R0) D R. pose proof (enforce_low tmo_c) as L1. pose proof (enforce_low tmo_s) as L2. fold tc in L1. fold ts in L2. unfold sec in *.
  assert (TC : 0 < tc) by lia. assert (TS : 0 < ts) by lia.
  pose proof (fine_run tc ts delay TC TS _ _ _ (fine_init tc ts TC TS t) R0) as F. pose proof (noticed tc ts delay TC TS p s es s' F D R) as N. now destruct p.
Qed.
(** And time does go on: when the network has failed, it passes, with nobody receiving anything, until somebody closes the connection. *)
Theorem C114_goes_on : forall tmo_c tmo_s t s, let tc := enforce tmo_c in let ts := enforce tmo_s in
  reached tc ts None t s -> dropped s = None ->
  exists es s', run tc ts None s es = Some s' /\ deaf Client es /\ deaf Server es /\ (dropped s' <> None \/ now s < now s').
Proof.
  intros tmo_c tmo_s t s tc ts (e0 & R0) U. pose proof (enforce_low tmo_c) as L1. pose proof (enforce_low tmo_s) as L2. fold tc in L1. fold ts in L2. unfold sec in *.
  assert (TC : 0 < tc) by lia. assert (TS : 0 < ts) by lia.
  pose proof (fine_run tc ts None TC TS _ _ _ (fine_init tc ts TC TS t) R0) as F. destruct (silent_progress tc ts s TC TS F U) as (es & s' & R & D & P).
  exists es, s'. split; [exact R|]. split; [exact (D Client)|]. split; [exact (D Server)|exact P].
Qed.
(** Also while the network is up: the first theorems are not about a clock that stands still. *)
Theorem C114_goes_on_up : forall tmo_c tmo_s delay t s, let tc := enforce tmo_c in let ts := enforce tmo_s in
  reached tc ts delay t s -> dropped s = None ->
  exists es s', run tc ts delay s es = Some s' /\ (dropped s' <> None \/ now s < now s').
Proof.
  intros tmo_c tmo_s delay t s tc ts (e0 & R0) U. pose proof (enforce_low tmo_c) as L1. pose proof (enforce_low tmo_s) as L2. fold tc in L1. fold ts in L2. unfold sec in *.
  assert (TC : 0 < tc) by lia. assert (TS : 0 < ts) by lia.
  exact (progress tc ts delay s TC TS (fine_run tc ts delay TC TS _ _ _ (fine_init tc ts TC TS t) R0) U).
Qed.

(** A server with a timeout shorter than the period of a client's echos: the connection ends, although the peers reach each other without any
    delay, on every history on which nothing else is sent.  So with the defaults for the client, and EPICS_PVA_CONN_TMO of 10 s for the server. *)
Theorem C114_short_server_refuted :
  (forall tc ts t es s, 0 < tc -> 0 < ts -> ts < echo_period tc -> idle es -> run tc ts (Some 0) (init tc t) es = Some s -> now s <= t + ts) /\
  enforce None = 40 * sec /\ configured (10 * sec) < echo_period (enforce None) /\
  exists es s, idle es /\ run (enforce None) (configured (10 * sec)) (Some 0) (init (enforce None) 0) es = Some s /\ dropped s = Some Server.
Proof.
  split; [|split; [reflexivity|split; [reflexivity|]]].
  - intros tc ts t es s TC TS H I R.
    assert (G : forall es s0 s1, (to_server s0 = [] /\ to_client s0 = [] /\ tick s0 = t + echo_period tc /\ s_last s0 = t /\ now s0 <= t + ts) -> idle es -> run tc ts (Some 0) s0 es = Some s1 -> now s1 <= t + ts).
    { clear - TC TS H. induction es as [|e es IH]; intros s0 s1 (G1 & G2 & G3 & G4 & G5) I R; cbn [run] in R; [now injection R as <-|].
      destruct (step tc ts (Some 0) s0 e) as [s2|] eqn:E; [|discriminate]. eapply IH; [|intros p Q; apply (I p); now right|exact R]. unfold step in E. destruct (dropped s0); [discriminate|].
      destruct e as [w| | | |p|[]].
      - destruct ((0 <? w) && may_wait tc ts (Some 0) s0 (now s0 + w)) eqn:W; [|discriminate]. injection E as <-. unfold may_wait in W. rewrite !andb_true_iff in W. cbn. repeat split; auto; lia.
      - destruct (now s0 =? tick s0) eqn:Q; [lia|discriminate].
      - rewrite G1 in E. discriminate.
      - rewrite G2 in E. discriminate.
      - exfalso. apply (I p). now left.
      - destruct (now s0 =? c_last s0 + tc); [|discriminate]. injection E as <-. cbn. auto.
      - destruct (now s0 =? s_last s0 + ts); [|discriminate]. injection E as <-. cbn. auto. }
    eapply G; [|exact I|exact R]. cbn. repeat split; lia.
  - exists [Wait (configured (10 * sec)); Expire Server]. eexists. split; [|split; vm_compute; reflexivity]. intros p [Q|[Q|[]]]; discriminate.
Qed.

(** Three rounds of echos over a network which takes up to 9 seconds, with the default timeout. *)
Example C114_example : exists es s, run (enforce None) (enforce None) (Some (9 * sec)) (init (enforce None) 0) es = Some s /\
  now s = 54 * sec /\ c_last s = 54 * sec /\ dropped s = None /\ In AtClient es /\ 4 * (9 * sec) < enforce None.
Proof.
  exists [Wait (15 * sec); Echo; Wait (9 * sec); AtServer; Wait (6 * sec); Echo; Wait (3 * sec); AtClient; Wait (3 * sec); AtServer; Wait (1 * sec); AtClient; Wait (8 * sec); Echo; Wait (4 * sec); AtServer; Wait (5 * sec); AtClient].
  eexists. split; [vm_compute; reflexivity|]. split; [reflexivity|]. split; [reflexivity|]. split; [reflexivity|]. split; [cbn; tauto|reflexivity].
Qed.
(** The network fails after the first round: the server, then, waits 40 s from the echo, and closes. *)
Example C114_example_dead : exists es s es' s', run (enforce None) (enforce None) None (init (enforce None) 0) es = Some s /\ last_of Server s = 16 * sec /\
  deaf Server es' /\ run (enforce None) (enforce None) None s es' = Some s' /\ dropped s' = Some Server /\ now s' = 56 * sec.
Proof.
  exists [Wait (15 * sec); Echo; Wait (1 * sec); AtServer; Wait (2 * sec); AtClient]. eexists.
  exists [Wait (12 * sec); Echo; Wait (15 * sec); Echo; Wait (11 * sec); Expire Server]. eexists.
  split; [vm_compute; reflexivity|]. split; [reflexivity|]. split; [reflexivity|]. split; [vm_compute; reflexivity|]. split; reflexivity.
Qed.

Print Assumptions C114_same_timeout.
Print Assumptions C114_any_client_partial.
Print Assumptions C114_settings.
Print Assumptions C114_noticed.
Print Assumptions C114_goes_on.
Print Assumptions C114_goes_on_up.
Print Assumptions C114_short_server_refuted.
