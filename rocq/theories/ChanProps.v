(** C95 to C101: channels and connections of a client. *)
From Coq Require Import ZArith String List Bool Arith Lia.
From Verif Require Import Base BaseProofs ChanModel ChanSpec ChanProofs ChanProofs2 ChanProofs3 ChanProofs4 ChanProofs5 ChanProofs6 ChanProofs7 ChanProofs8 ChanProofs9 ChanProofs10 ChanProofs11 ChanProofs12 ChanProofs13 ChanProofs14 ChanProofs15.
Import ListNotations.

(** To check of a given history what is taken for granted *)
Definition honestb (x : ctx) (e : event) : bool :=
  match e with
  | ECreated n _ sid true => match x_conns x n with Some k => negb (existsb (Z.eqb sid) (map fst (n_bysid k))) | None => true end
  | _ => true
  end.
Fixpoint honest_runb (x : ctx) (es : list event) : bool :=
  match es with [] => true | e :: es' => honestb x e && match step x e with Some y => honest_runb y es' | None => true end end.
Lemma honest_runb_ok es : forall x, honest_runb x es = true -> honest_run x es.
Proof.
  induction es as [|e es IH]; intros x H; [exact Logic.I|]. cbn [honest_runb] in H. apply andb_true_iff in H. destruct H as (H1 & H2). split.
  - destruct e; try exact Logic.I. cbn in H1 |- *. destruct ok; [|exact Logic.I]. intros k Ek J. rewrite Ek in H1. apply negb_true_iff in H1. assert (X : existsb (Z.eqb sid) (map fst (n_bysid k)) = true) by (apply existsb_exists; exists sid; split; [exact J|apply Z.eqb_refl]). congruence.
  - intros y Ey. rewrite Ey in H2. apply IH, H2.
Qed.
(** *** A history used below: a GET of "a" and a Connect to it, found at server 1 *)
Definition all_again (o : nat) := true.
Definition connect_a : list event := [EExec (bs "a") None true; EWatch (bs "a") None true; EFound 0 1 true; EUp 0; EValidated 0; ECreated 0 0 5 true].
Example connect_a_reached : exists x, reached [] connect_a x /\ Forall no_failure connect_a /\ x_run x = true /\ op_on x 0 (bs "a") None Active /\ handle_on x 0 (bs "a") None Active /\
  x_out x = [ODown 0; OOpen 0 1; OCreate 0 0 (bs "a"); OStart 0 0; OUp 0].
Proof.
  eexists. split; [split|].
  - cbn [honest_run connect_a honest]. repeat (split; [exact I|]; intros ? H; vm_compute in H; injection H as <-). split; [|intros; exact I]. intros k H. vm_compute in H. injection H as <-. cbn. tauto.
  - vm_compute. reflexivity.
  - split; [repeat constructor|]. split; [reflexivity|]. split; [|split; [|reflexivity]].
    + exists 0. eexists. split; [vm_compute; reflexivity|]. vm_compute. tauto.
    + exists 0. eexists. split; [vm_compute; reflexivity|]. vm_compute. tauto.
Qed.

(** ** C95 *)

(** Whatever the application does and servers send, in any order, no assertion of the
    client fails and no null pointer is used; as long as no server gives one number
    to two channels of a connection. *)
Theorem C95_no_crash : forall ns es, honest_run (init ns) es -> exists x, run (init ns) es = Some x.
Proof. intros ns es H. destruct (run_good false es (init ns) (init_good false ns) H) as (x & E & _); [discriminate|]. eauto. Qed.
(** A server which does so ends the process of the client: the channel which had the number
    is forgotten by its connection, and when that is lost, the operations of the channel
    are still registered (src/clientconn.cpp:202). *)
Theorem C95_no_crash_refuted : exists ns es, run (init ns) es = None.
Proof. exists [], (connect_a ++ [EExec (bs "b") None true; EFound 1 1 true; ECreated 0 1 5 true; ELost 0 false all_again]). vm_compute. reflexivity. Qed.

(** ** C96 *)

(** While the context is open, the client always has something under way for each channel. *)
Theorem C96_attended : forall ns es x i c, reached ns es x -> Forall no_failure es -> x_run x = true -> x_chans x i = Some c -> attended x i c.
Proof. intros ns es x i c R F Hr Ec. apply fine_attended; [apply (reached_fine_true ns es x R F)|exact Hr|exact Ec]. Qed.
(** An operation which waits will be started, if a server (at any address) answers to searches
    and then accepts the connection and the channel: there is no state in which it is stuck. *)
Theorem C96_progress : forall ns es x i c o a, reached ns es x -> Forall no_failure es -> x_run x = true ->
  x_chans x i = Some c -> In o (c_refs c) -> life_of o (x_out x) = Some Waiting ->
  exists es' y l n, Forall helps es' /\ reached ns (es ++ es') y /\ x_out y = x_out x ++ l /\ In (OStart o n) l /\
                    (c_state c = Searching -> exists rest, es' = EFound i a true :: rest).
Proof.
  intros ns es x i c o a R F Hr Ec I W. pose proof (reached_fine_true ns es x R F) as G. destruct (go_all x i c o a (conj G Hr) Ec I) as (es' & y & n & k & (H1 & H2 & H3) & (Gy & _) & (c' & Ec' & I' & _ & Es & _)).
  set (fs := (match c_state c with Searching => [EFound i a true] | _ => [] end) ++ es') in *.
  destruct (run_out true fs x y G H2) as (l & El); [intros _; apply Forall_impl with (P := helps); [exact helps_no_failure|exact H1]|exact H3|].
  assert (Lf : exists q, life_of o (x_out y) = Some q /\ q <> Waiting).
  { destruct (b_life _ _ (gB _ _ _ _ _ Gy) i c' o Ec' I') as [(_ & L) | [(_ & P & _) | (_ & _ & L)]].
    - exists Running. split; [exact L|discriminate].
    - rewrite (b_wait _ _ (gB _ _ _ _ _ Gy) i c' ltac:(discriminate) Ec' Es) in P. destruct P.
    - exists Ended. split; [exact L|discriminate]. }
  destruct Lf as (q & Lq & Nq). rewrite El, life_app, W in Lq. destruct (life_starts_ex o l q Lq Nq) as (m & Im).
  exists fs, y, l, m. split; [exact H1|]. destruct R as (R1 & R2). split; [split; [apply honest_app; split; [exact R1|]; intros u Eu; assert (u = x) by congruence; subst; exact H2|rewrite run_app, R2; exact H3]|].
  split; [exact El|]. split; [exact Im|]. intros Sc. unfold fs. rewrite Sc. cbn [app]. eauto.
Qed.
Example C96_progress_meets : exists x i c o, reached [] [EExec (bs "a") None true] x /\ x_run x = true /\ x_chans x i = Some c /\ In o (c_refs c) /\ life_of o (x_out x) = Some Waiting.
Proof. eexists. exists 0. eexists. exists 0. split; [split; [cbn [honest_run honest]; auto|vm_compute; reflexivity]|]. split; [reflexivity|]. split; [vm_compute; reflexivity|]. vm_compute. tauto. Qed.
(** Not so if an attempt to connect fails at once (src/clientconn.cpp:76-77).  The channel for
    a given server is put into the cache before the attempt (src/client.cpp:376-384), and a later
    operation gets it from there: nothing is done for it. *)
Theorem C96_failed_build_refuted : exists ns es x i c, reached ns es x /\ x_run x = true /\ x_chans x i = Some c /\ c_refs c <> [] /\ ~ attended x i c.
Proof.
  exists [], [EExec (bs "a") (Some 1%Z) false; EExec (bs "a") (Some 1%Z) true]. eexists. exists 0. eexists. split; [split; [cbn [honest_run honest]; auto|vm_compute; reflexivity]|]. split; [reflexivity|]. split; [vm_compute; reflexivity|]. split; [discriminate|]. vm_compute. tauto.
Qed.
(** And if the attempt after the hold off time fails at once, the timer is not started again
    (src/clientconn.cpp:476-487). *)
Theorem C96_failed_holdoff_refuted : exists ns es x i c, reached ns es x /\ x_run x = true /\ x_chans x i = Some c /\ c_refs c <> [] /\ ~ attended x i c.
Proof.
  set (es := [EExec (bs "a") (Some 1%Z) true; EUp 0; ELost 0 false all_again; ETick 1 false]).
  set (f := fun x => match x_chans x 0 with Some c => match c_conn c with Some n => match x_conns x n with Some k => Some (x_run x, c_refs c, c_state c, n_bev k, n_timer k) | None => None end | None => None end | None => None end).
  assert (E : match run (init []) es with Some x => f x | None => None end = Some (true, [0], Connecting, false, false)) by (vm_compute; reflexivity).
  destruct (run (init []) es) as [x|] eqn:R; [|discriminate]. unfold f in E. destruct (x_chans x 0) as [c|] eqn:Ec; [|discriminate]. destruct (c_conn c) as [n|] eqn:En; [|discriminate].
  destruct (x_conns x n) as [k|] eqn:Ek; [|discriminate]. injection E as E1 E2 E3 E4 E5. exists [], es, x, 0, c. split; [split; [unfold es; cbn [honest_run honest]; auto 10|exact R]|]. split; [exact E1|]. split; [exact Ec|]. split; [congruence|].
  unfold attended. rewrite E3. intros (m & q & Em & Eq & _ & _ & H). assert (m = n) by congruence. subst m. assert (q = k) by congruence. subst q. destruct H as [H | (_ & H)]; congruence.
Qed.
(** An operation for a given server goes to another one, if the given one refuses the channel:
    the channel is then searched for, and any server may answer (src/clientconn.cpp:355-364). *)
Theorem C96_given_server_refuted : exists ns es x i c n k, reached ns es x /\ x_chans x i = Some c /\ c_refs c <> [] /\ c_conn c = Some n /\ x_conns x n = Some k /\
  c_server c = Some 1%Z /\ n_addr k = 2%Z.
Proof.
  exists [], [EExec (bs "a") (Some 1%Z) true; EUp 0; EValidated 0; ECreated 0 0 0 false; EFound 0 2 true]. eexists. exists 0. eexists. exists 1. eexists. split; [split; [cbn [honest_run honest]; auto 20|vm_compute; reflexivity]|].
  split; [vm_compute; reflexivity|]. split; [discriminate|]. split; [reflexivity|]. split; [vm_compute; reflexivity|]. split; reflexivity.
Qed.
(** A connection to a name server which the client ends for a violation of the protocol is not
    made again: onNSCheck() looks for connections which were lost, and this one is not marked so
    (src/client.cpp:1286, src/conn.cpp:161-168). *)
Theorem C96_name_server_refuted : exists ns es x n k y, reached ns es x /\ x_run x = true /\ x_ns x = map (fun a => (a, Some n)) ns /\ ns <> [] /\ x_conns x n = Some k /\ n_bev k = false /\ n_timer k = false /\
  step x (ENsCheck (fun _ => true)) = Some y /\ x_out y = x_out x.
Proof.
  set (h := [ENsCheck (fun _ => true); EUp 0; EValidated 0; ELost 0 true all_again]). assert (Hh : honest_run (init [9%Z]) h) by (apply honest_runb_ok; vm_compute; reflexivity).
  assert (E : match run (init [9%Z]) h with Some x => match x_conns x 0, step x (ENsCheck (fun _ => true)) with Some k, Some y => Some (x_run x, x_ns x, n_bev k, n_timer k, x_out x, x_out y) | _, _ => None end | None => None end
     = Some (true, [(9%Z, Some 0)], false, false, [OOpen 0 9], [OOpen 0 9])) by (vm_compute; reflexivity).
  destruct (run (init [9%Z]) h) as [x|] eqn:R; [|discriminate]. destruct (x_conns x 0) as [k|] eqn:Ek; [|discriminate]. destruct (step x (ENsCheck (fun _ => true))) as [y|] eqn:Ey; [|discriminate]. injection E as E1 E2 E3 E4 E5 E6.
  exists [9%Z], h, x, 0, k, y. split; [split; assumption|]. split; [exact E1|]. split; [exact E2|]. split; [discriminate|]. split; [exact Ek|]. split; [exact E3|]. split; [exact E4|]. split; [exact Ey|congruence].
Qed.

(** ** C97 *)

(** What is told to each operation is in order: started when waiting, disconnected or ended
    only when started, and nothing after its end. *)
Theorem C97_order : forall ns es x o, reached ns es x -> life_of o (x_out x) <> None.
Proof. intros ns es x o R. apply (b_all _ _ (gB _ _ _ _ _ (reached_fine ns es x R))). Qed.
(** An operation which is not released runs or has ended if its channel is connected; otherwise
    it waits, or has ended. *)
Theorem C97_state : forall ns es x o name server s, reached ns es x -> op_on x o name server s ->
  life_of o (x_out x) = Some Ended \/ life_of o (x_out x) = Some (match s with Active => Running | _ => Waiting end).
Proof.
  intros ns es x o name server s R (i & c & Ec & I & _ & _ & Es). pose proof (gB _ _ _ _ _ (reached_fine ns es x R)) as B. subst s.
  destruct (b_life _ _ B i c o Ec I) as [(J & L) | [(_ & P & L) | (_ & _ & L)]].
  - right. rewrite (b_act _ _ B i c Ec); [exact L|]. intros Z. rewrite Z in J. destruct J.
  - right. destruct (c_state c) eqn:Es; try exact L. rewrite (b_wait _ _ B i c ltac:(discriminate) Ec Es) in P. destruct P.
  - left. exact L.
Qed.
(** The client never forgets an operation before the application releases it. *)
Theorem C97_kept : forall ns es es' x y o name server s, reached ns es x -> op_on x o name server s -> reached ns (es ++ es') y -> Forall (fun e => ~ drops e o) es' ->
  exists s', op_on y o name server s'.
Proof.
  intros ns es es' x y o name server s R (i & c & Ec & I & En & Es & _) (H & E) Hd. pose proof (reached_fine ns es x R) as G. destruct R as (_ & R). apply honest_app in H. destruct H as (_ & H). rewrite run_app, R in E.
  destruct (run_ops false es' x y i c o G (H x R)) as (c' & Ec' & I' & En' & Es'); auto; [discriminate|]. exists (c_state c'), i, c'. repeat split; congruence.
Qed.
(** exec() makes a new operation for that PV, unless the context was closed (then it throws). *)
Theorem C97_exec : forall ns es x name server ok, reached ns es x -> x_run x = true -> (server = None \/ ok = true) ->
  exists y s, step x (EExec name server ok) = Some y /\ op_on y (x_no x) name server s /\ (forall name' server' s', ~ op_on x (x_no x) name' server' s').
Proof.
  intros ns es x name server ok R Hr Hok. pose proof (reached_fine ns es x R) as G. destruct (step_good false (EExec name server ok) x G I) as (y & Ey & _); [discriminate|].
  destruct (exec_detail false name server ok x y G Hr Hok Ey) as (i & c & Ec & J & En & Es & _). exists y, (c_state c). split; [exact Ey|]. split; [exists i, c; auto|].
  intros nm sv st (j & d & Ed & K & _). pose proof (b_lt _ _ (gB _ _ _ _ _ G) j d (x_no x) Ed (or_introl K)). lia.
Qed.
(** An operation ends with an error of the connection only if it is one which is not tried
    again; others wait, and start again with the channel ([C97_state]). *)
Theorem C97_again : forall ns es x o name server s e y, reached ns es x -> op_on x o name server s -> honest x e -> step x e = Some y -> ~ drops e o ->
  life_of o (x_out x) <> Some Ended -> life_of o (x_out y) = Some Ended ->
  match e with
  | ELost _ _ again | EDestroyed _ _ again | EClean _ Disconnect again | EClose again => again o = false
  | EEnd _ o' => o = o'
  | _ => False
  end.
Proof.
  intros ns es x o name server s e y R _ Hh E _ N L. pose proof (reached_fine ns es x R) as G. destruct (g_out _ _ _ _ _ _ (step_keeps false e x y G Hh ltac:(discriminate) E)) as (l & El & T).
  rewrite El, life_app in L.
  assert (D : exists f, In f l /\ (f = OFail o \/ f = OEnd o)).
  { destruct (existsb (fun f => match f with OFail o' | OEnd o' => Nat.eqb o o' | _ => false end) l) eqn:Ex.
    - apply existsb_exists in Ex. destruct Ex as (f & If & Hf). exists f. split; [exact If|]. destruct f; try discriminate; apply Nat.eqb_eq in Hf; subst; auto.
    - exfalso. apply N. apply (live_to o l _ Ended L); [|reflexivity]. intros f If. assert (Hf : match f with OFail o' | OEnd o' => Nat.eqb o o' | _ => false end = false).
      { destruct (match f with OFail o' | OEnd o' => Nat.eqb o o' | _ => false end) eqn:Hf; [|reflexivity]. rewrite <- Ex. symmetry. apply existsb_exists. exists f. auto. }
      destruct f; auto; apply Nat.eqb_neq in Hf; exact Hf. }
  destruct D as (f & If & Hf). rewrite Forall_forall in T. specialize (T f If). destruct Hf as [-> | ->]; cbn in T; destruct e; try destruct a; cbn in T; try contradiction; auto.
Qed.
Example C97_meets : exists x, reached [] connect_a x /\ op_on x 0 (bs "a") None Active /\ exists y, step x (ELost 0 false (fun _ => false)) = Some y /\ life_of 0 (x_out x) = Some Running /\ life_of 0 (x_out y) = Some Ended.
Proof.
  destruct connect_a_reached as (x & R & _ & _ & O & _). exists x. split; [exact R|]. split; [exact O|]. destruct R as (_ & R). vm_compute in R. injection R as <-.
  eexists. split; [vm_compute; reflexivity|]. split; reflexivity.
Qed.

(** ** C98 *)

(** A Connect handle tells connection and disconnection in turn, never one twice. *)
Theorem C98_turns : forall ns es x w, reached ns es x -> told_to w (x_out x) <> None.
Proof. intros ns es x w R. apply (w_all _ (gC _ _ _ _ _ (reached_fine ns es x R))). Qed.
(** The last which it told is true now. *)
Theorem C98_current : forall ns es x w name server s, reached ns es x -> handle_on x w name server s -> told_to w (x_out x) = Some (Some (match s with Active => true | _ => false end)).
Proof.
  intros ns es x w name server s R (i & c & Ec & I & _ & _ & <-). apply in_map_iff in I. destruct I as ((w', b) & Ew & I). cbn in Ew. subst w'.
  destruct (w_flag _ (gC _ _ _ _ _ (reached_fine ns es x R)) i c w b Ec I) as (-> & T). rewrite T. unfold is_active. destruct (c_state c); reflexivity.
Qed.
Theorem C98_kept : forall ns es es' x y w name server s, reached ns es x -> handle_on x w name server s -> reached ns (es ++ es') y -> Forall (fun e => ~ releases e w) es' ->
  exists s', handle_on y w name server s'.
Proof.
  intros ns es es' x y w name server s R (i & c & Ec & I & En & Es & _) (H & E) Hd. pose proof (reached_fine ns es x R) as G. destruct R as (_ & R). apply honest_app in H. destruct H as (_ & H). rewrite run_app, R in E.
  destruct (run_handles false es' x y i c w G (H x R)) as (c' & Ec' & I' & En' & Es'); auto; [discriminate|]. exists (c_state c'), i, c'. repeat split; congruence.
Qed.
Theorem C98_new : forall ns es x name server ok, reached ns es x -> x_run x = true -> (server = None \/ ok = true) ->
  exists y s, step x (EWatch name server ok) = Some y /\ handle_on y (x_nw x) name server s.
Proof.
  intros ns es x name server ok R Hr Hok. pose proof (reached_fine ns es x R) as G. destruct (step_good false (EWatch name server ok) x G I) as (y & Ey & _); [discriminate|].
  destruct (watch_detail false name server ok x y G Hr Hok Ey) as (i & c & Ec & J & En & Es). exists y, (c_state c). split; [exact Ey|]. exists i, c. auto.
Qed.
Example C98_meets : exists x y, reached [] connect_a x /\ handle_on x 0 (bs "a") None Active /\ step x (EDestroyed 0 5 all_again) = Some y /\ told_to 0 (x_out x) = Some (Some true) /\ told_to 0 (x_out y) = Some (Some false).
Proof.
  destruct connect_a_reached as (x & R & _ & _ & _ & O & _). exists x. destruct R as (H & R). pose proof R as R'. vm_compute in R'. injection R' as <-. eexists. split; [split; assumption|]. split; [exact O|]. split; [vm_compute; reflexivity|]. split; reflexivity.
Qed.

(** ** C99 *)

(** When a connection is lost none of its channels stays connected, or being connected, by it;
    and each running operation of them is told: those which are tried again wait, others have
    ended with an error. *)
Theorem C99_lost : forall ns es x n k v again, reached ns es x -> x_conns x n = Some k -> n_bev k = true ->
  exists y, step x (ELost n v again) = Some y /\
  (forall i c, x_chans y i = Some c -> c_state c <> Searching -> c_conn c <> Some n) /\
  (forall k', x_conns y n = Some k' -> n_bev k' = false) /\
  (forall i c o, x_chans x i = Some c -> In o (c_refs c) -> c_conn c = Some n -> life_of o (x_out x) = Some Running ->
     life_of o (x_out y) = Some (if again o then Waiting else Ended)).
Proof.
  intros ns es x n k v again R Ek Hb. pose proof (reached_fine ns es x R) as G. destruct (lost_detail false v again n k x G Ek Hb) as (y & Ey & Gy & H1 & H2).
  exists y. split; [exact Ey|]. split; [intros i c Ec Ns En; apply Ns; eauto|]. split; [exact H2|]. intros i c o Ec I En L.
  pose proof (step_keeps false (ELost n v again) x y G Logic.I ltac:(discriminate) Ey) as K. destruct (g_op _ _ _ _ _ _ K i c o Ec I (fun F => F)) as (c' & Ec' & I' & _).
  assert (Na : c_state c' <> Active).
  { intros Ac. unfold step in Ey. cbn [handle] in Ey. destruct (lost again v n x) as [u|] eqn:Eu; [|discriminate]. destruct (lost_good false again v n x G) as (u' & Eu' & Gu & _). assert (u' = u) by congruence. subst u'.
    cbn [ChanModel.bind] in Ey. destruct (collect_good false u Gu) as (z & Ez & _ & Kz). assert (z = y) by congruence. subst z. pose proof (noact_trans _ _ _ (noact_lost _ _ _ _ _ Eu) (noact_kept _ _ Kz)) as N.
    destruct (N i c' Ec' Ac) as (d & Ed & Ad & Cd). assert (d = c) by congruence. subst d. rewrite En in Cd. symmetry in Cd. pose proof (H1 i c' Ec' Cd). congruence. }
  destruct (told_off false (ELost n v again) x y i c c' o G Logic.I ltac:(discriminate) Ey Gy (fun F => F) ltac:(discriminate) Ec I L Ec' Na) as (b & Eb & Lb). cbn in Eb. injection Eb as <-. exact Lb.
Qed.
(** So it is when a server destroys one channel, *)
Theorem C99_destroyed : forall ns es x n k i c again, reached ns es x -> x_conns x n = Some k -> n_bev k = true -> n_state k = Connected ->
  x_chans x i = Some c -> c_state c = Active -> c_conn c = Some n ->
  exists y, step x (EDestroyed n (c_sid c) again) = Some y /\ (forall c', x_chans y i = Some c' -> c_state c' <> Active) /\
  (forall o, In o (c_refs c) -> life_of o (x_out x) = Some Running -> life_of o (x_out y) = Some (if again o then Waiting else Ended)).
Proof.
  intros ns es x n k i c again R Ek Hb Hs Ec Es En. pose proof (reached_fine ns es x R) as G. destruct (destroyed_detail false again n k (c_sid c) x i c G Ek Hb Hs Ec Es En eq_refl) as (y & Ey & Gy & N).
  exists y. split; [exact Ey|]. split; [exact N|]. intros o I L.
  pose proof (step_keeps false (EDestroyed n (c_sid c) again) x y G Logic.I ltac:(discriminate) Ey) as K. destruct (g_op _ _ _ _ _ _ K i c o Ec I (fun F => F)) as (c' & Ec' & I' & _).
  destruct (told_off false (EDestroyed n (c_sid c) again) x y i c c' o G Logic.I ltac:(discriminate) Ey Gy (fun F => F) ltac:(discriminate) Ec I L Ec' (N c' Ec')) as (b & Eb & Lb). cbn in Eb. injection Eb as <-. exact Lb.
Qed.
(** and when the application disconnects channels in the cache, by name or all. *)
Theorem C99_disconnect : forall ns es x name again i c, reached ns es x -> x_chans x i = Some c -> In ((c_name c, c_server c), i) (x_names x) -> (name = [] \/ c_name c = name) ->
  exists y, step x (EClean name Disconnect again) = Some y /\ (forall c', x_chans y i = Some c' -> c_state c' <> Active) /\
  (forall o, In o (c_refs c) -> life_of o (x_out x) = Some Running -> life_of o (x_out y) = Some (if again o then Waiting else Ended)).
Proof.
  intros ns es x name again i c R Ec I Hm. pose proof (reached_fine ns es x R) as G. destruct (disconnect_detail false name again x _ i G I Hm) as (y & Ey & Gy & N).
  exists y. split; [exact Ey|]. split; [exact N|]. intros o Io L.
  pose proof (step_keeps false (EClean name Disconnect again) x y G Logic.I ltac:(discriminate) Ey) as K. destruct (g_op _ _ _ _ _ _ K i c o Ec Io (fun F => F)) as (c' & Ec' & I' & _).
  destruct (told_off false (EClean name Disconnect again) x y i c c' o G Logic.I ltac:(discriminate) Ey Gy (fun F => F) ltac:(discriminate) Ec Io L Ec' (N c' Ec')) as (b & Eb & Lb). cbn in Eb. injection Eb as <-. exact Lb.
Qed.
(** No other event disconnects a channel: it stays on its connection with its number, and its
    operations run on. *)
Theorem C99_others : forall ns es x e y i c o, reached ns es x -> honest x e -> step x e = Some y -> x_chans x i = Some c -> c_state c = Active -> In o (c_refs c) -> ~ drops e o -> ~ hits x e i ->
  exists c', x_chans y i = Some c' /\ c_state c' = Active /\ c_conn c' = c_conn c /\ c_sid c' = c_sid c /\
  (life_of o (x_out x) = Some Running -> (forall j, e <> EEnd j o) -> life_of o (x_out y) = Some Running).
Proof.
  intros ns es x e y i c o R Hh E Ec Es I Nd Nh. pose proof (reached_fine ns es x R) as G. pose proof (step_keeps false e x y G Hh ltac:(discriminate) E) as K.
  destruct (g_op _ _ _ _ _ _ K i c o Ec I Nd) as (c' & Ec' & I' & _ & _ & L3). destruct (L3 Nh Es) as (A1 & A2 & A3 & A4). exists c'. split; [exact Ec'|]. split; [exact A1|]. split; [exact A3|]. split; [exact A2|].
  intros L Ne. destruct (step_good false e x G Hh ltac:(discriminate)) as (y' & Ey' & Gy). assert (y' = y) by congruence. subst y'.
  assert (J : In o (c_ops c)). { destruct (b_life _ _ (gB _ _ _ _ _ G) i c o Ec I) as [(J & _) | [(_ & _ & W) | (_ & _ & W)]]; [exact J|congruence|congruence]. }
  assert (J' : In o (c_ops c')). { apply A4; [exact J|]. intros [X | X]; [contradiction|]. destruct e; cbn in X; try contradiction. subst. eapply Ne. reflexivity. }
  destruct (b_life _ _ (gB _ _ _ _ _ Gy) i c' o Ec' I') as [(_ & W) | [(X & _) | (X & _)]]; [exact W|contradiction|contradiction].
Qed.
Example C99_meets : exists x n k i c, reached [] connect_a x /\ x_conns x n = Some k /\ n_bev k = true /\ n_state k = Connected /\ x_chans x i = Some c /\ c_state c = Active /\ c_conn c = Some n /\
  In ((c_name c, c_server c), i) (x_names x) /\ In 0 (c_refs c) /\ life_of 0 (x_out x) = Some Running /\ ~ hits x (EClean (bs "b") Disconnect all_again) i.
Proof.
  destruct connect_a_reached as (x & R & _). exists x, 0.
  assert (E : match run (init []) connect_a with Some x => match x_conns x 0, x_chans x 0 with Some k, Some c => Some (n_bev k, n_state k, c_state c, c_conn c, c_refs c, (c_name c, c_server c), x_names x, life_of 0 (x_out x)) | _, _ => None end | None => None end
     = Some (true, Connected, Active, Some 0, [0], (bs "a", None), [((bs "a", None), 0)], Some Running)) by (vm_compute; reflexivity).
  rewrite (proj2 R) in E. destruct (x_conns x 0) as [k|] eqn:Ek; [|discriminate]. destruct (x_chans x 0) as [c|] eqn:Ec; [|discriminate]. injection E as E1 E2 E3 E4 E5 E6 E7 E8 E9.
  exists k, 0, c. rewrite E5, E6, E7, E8. split; [exact R|]. split; [first [reflexivity | exact Ek]|]. split; [exact E1|]. split; [exact E2|]. split; [first [reflexivity | exact Ec]|]. split; [exact E3|]. split; [exact E4|]. split; [left; reflexivity|]. split; [left; reflexivity|]. split; [exact E9|].
  intros (d & Ed & H). cbn in H. assert (d = c) by congruence. subst d. rewrite E6 in H. destruct H as ([H | H] & _); [discriminate|]. vm_compute in H. discriminate.
Qed.

(** ** C100 *)

(** Operations for one PV share a channel: so does one which is made while another is not
    released, unless cached channels were dropped or disconnected meanwhile. *)
Theorem C100_shared : forall ns es es' x x1 y name server ok ok' z, reached ns es x -> x_run x = true -> (server = None \/ ok = true /\ ok' = true) ->
  step x (EExec name server ok) = Some x1 -> reached ns (es ++ EExec name server ok :: es') y -> x_run y = true -> Forall (fun e => ~ drops e (x_no x) /\ ~ forgets e) es' ->
  step y (EExec name server ok') = Some z -> share z (x_no x) (x_no y).
Proof.
  intros ns es es' x x1 y name server ok ok' z R Hr Hok E1 R2 Hr2 Hd E2. pose proof (reached_fine ns es x R) as G. pose proof (reached_fine _ _ _ R2) as Gy.
  destruct (exec_detail false name server ok x x1 G Hr ltac:(tauto) E1) as (i & c & Ec & I & _ & _ & Nm & _). destruct R as (_ & R). destruct R2 as (H2 & R2). rewrite run_app, R in R2. cbn [run ChanModel.bind] in R2. rewrite E1 in R2. cbn [ChanModel.bind] in R2.
  apply honest_app in H2. destruct H2 as (_ & H2). pose proof (H2 x R) as (H3 & H4). specialize (H4 x1 E1). destruct (step_good false (EExec name server ok) x G H3 ltac:(discriminate)) as (x1' & Ex1 & G1). assert (x1' = x1) by congruence. subst x1'.
  destruct (run_names false es' x1 y (name, server) i c (x_no x) G1 H4 ltac:(discriminate) R2 Hd Nm Ec I) as (Nm' & c' & Ec' & I').
  destruct (exec_detail false name server ok' y z Gy Hr2 ltac:(tauto) E2) as (j & d & Ed & J & _ & _ & _ & Hj). specialize (Hj i Nm'). subst j.
  destruct (g_op _ _ _ _ _ _ (step_keeps false (EExec name server ok') y z Gy Logic.I ltac:(discriminate) E2) i c' (x_no x) Ec' I' (fun F => F)) as (c2 & E3 & I3 & _). assert (c2 = d) by congruence. subst c2.
  exists i, d. auto.
Qed.
(** Never those for different PVs, or given servers. *)
Theorem C100_apart : forall ns es x o p name server s name' server' s', reached ns es x -> op_on x o name server s -> op_on x p name' server' s' -> share x o p -> name = name' /\ server = server'.
Proof.
  intros ns es x o p name server s name' server' s' R (i & c & Ec & I & En & Es & _) (j & d & Ed & J & En' & Es' & _) (m & b & Eb & I2 & J2). pose proof (gB _ _ _ _ _ (reached_fine ns es x R)) as B.
  assert (i = m) by (apply (b_own _ _ B i m c b o); assumption). assert (j = m) by (apply (b_own _ _ B j m d b p); assumption). subst i j. assert (c = b) by congruence. assert (d = b) by congruence. subst. auto.
Qed.
(** Drop and Disconnect prevent the reuse of channels. *)
Theorem C100_dropped : forall ns es x name a again y server ok z o, reached ns es x -> x_run x = true -> a <> Clean -> step x (EClean name a again) = Some y -> x_run y = true ->
  (server = None \/ ok = true) -> step y (EExec name server ok) = Some z -> o < x_no y -> ~ share z o (x_no y).
Proof.
  intros ns es x name a again y server ok z o R Hr Na Ey Hry Hok Ez Ho. pose proof (reached_fine ns es x R) as G. destruct (step_good false (EClean name a again) x G Logic.I ltac:(discriminate)) as (y' & Ey' & Gy). assert (y' = y) by congruence. subst y'.
  unfold step in Ey. cbn [handle] in Ey. unfold clean in Ey. destruct (clean_loop false name a again (x_names x) x G (d_nd _ (gD _ _ _ _ _ G)) ltac:(auto)) as (v & Ev & Gv). rewrite Ev in Ey. cbn [ChanModel.bind] in Ey.
  destruct (clean_forgets false name a again (x_names x) Na x v G (d_nd _ (gD _ _ _ _ _ G)) ltac:(auto) Ev) as (N1 & N2). destruct (collect_good false v Gv) as (w & Ew & _ & Kw). assert (w = y) by congruence. subst w.
  assert (Nc : ~ In (name, server) (map fst (x_names y))).
  { rewrite (k_names _ _ Kw). intros J. pose proof J as J0. apply in_map_iff in J0. destruct J0 as ((key, i) & Ek & J0). cbn in Ek. subst key. apply (N2 (name, server) i); [apply N1, J0|right; reflexivity|exact J]. }
  destruct (exec_where false name server ok y z Gy Hry Hok Ez Nc) as (i & c & Ec & I). destruct (step_good false (EExec name server ok) y Gy Logic.I ltac:(discriminate)) as (z' & Ez' & Gz). assert (z' = z) by congruence. subst z'.
  intros (j & d & Ed & J1 & J2). pose proof (gB _ _ _ _ _ Gz) as B. assert (i = j) by (apply (b_own _ _ B i j c d (x_no y)); auto; rewrite I; left; reflexivity). subst j. assert (d = c) by congruence. subst d. rewrite I in J1. destruct J1 as [J1 | []]. lia.
Qed.
Example C100_meets : exists x y z, reached [] [] x /\ x_run x = true /\ reached [] ([] ++ connect_a) y /\ x_run y = true /\ Forall (fun e => ~ drops e (x_no x) /\ ~ forgets e) (tl connect_a) /\
  step y (EExec (bs "a") None true) = Some z /\ share z 0 1.
Proof.
  destruct connect_a_reached as (y & R & _ & Hr & _). exists (init []), y. destruct (step_good false (EExec (bs "a") None true) y (reached_fine _ _ _ R) Logic.I ltac:(discriminate)) as (z & Ez & _). exists z.
  split; [split; [exact Logic.I|reflexivity]|]. split; [reflexivity|]. split; [exact R|]. split; [exact Hr|]. split; [repeat constructor; intros []|]. split; [exact Ez|].
  assert (E : match run (init []) connect_a with Some y => match step y (EExec (bs "a") None true) with Some z => match x_chans z 0 with Some c => Some (c_refs c) | None => None end | None => None end | None => None end = Some [0; 1]) by (vm_compute; reflexivity).
  rewrite (proj2 R), Ez in E. destruct (x_chans z 0) as [c|] eqn:Ec; [|discriminate]. injection E as E. exists 0, c. rewrite E. cbn. auto.
Qed.
(** While no connection was lost, there is at most one to each server. *)
Theorem C100_one_connection : forall ns es x n m k q, reached ns es x -> Forall (fun e => match e with ELost _ _ _ | EClose _ => False | _ => True end) es ->
  x_conns x n = Some k -> x_conns x m = Some q -> n_addr k = n_addr q -> n = m.
Proof.
  intros ns es x n m k q (H & R) F En Em Ea. assert (Rg : reg x) by (apply (regs_run es (init ns) x (init_good false ns) H); [intros i c E; discriminate|exact R|exact F]).
  pose proof (Rg n k En). pose proof (Rg m q Em). congruence.
Qed.
(** But not always.  When the last reference to a lost connection goes, its destructor
    removes whichever connection to that server is registered now (src/clientconn.cpp:41-45,
    :170), and the next channel for this server gets another one. *)
Definition twice : list event :=
  [EExec (bs "a") (Some 1%Z) true; EUp 0; EValidated 0; ECreated 0 0 7 true; ELost 0 false all_again; ETick 1 true; EExec (bs "b") None true; EFound 1 1 true].
Example twice_reached : exists x, reached [] twice x /\ match x_conns x 1, x_conns x 2 with Some k, Some q => Some (n_addr k, n_bev k, n_addr q, n_bev q, x_addr x 1%Z, x_run x) | _, _ => None end = Some (1%Z, true, 1%Z, true, Some 2, true).
Proof.
  assert (E : match run (init []) twice with Some x => match x_conns x 1, x_conns x 2 with Some k, Some q => Some (n_addr k, n_bev k, n_addr q, n_bev q, x_addr x 1%Z, x_run x) | _, _ => None end | None => None end = Some (1%Z, true, 1%Z, true, Some 2, true)) by (vm_compute; reflexivity).
  destruct (run (init []) twice) as [x|] eqn:R; [|discriminate]. exists x. split; [split; [|exact R]|exact E].
  apply honest_runb_ok. vm_compute. reflexivity.
Qed.
Theorem C100_one_connection_refuted : exists ns es x n m k q, reached ns es x /\ x_conns x n = Some k /\ x_conns x m = Some q /\ n_addr k = n_addr q /\ n_bev k = true /\ n_bev q = true /\ n <> m.
Proof.
  destruct twice_reached as (x & R & E). destruct (x_conns x 1) as [k|] eqn:Ek; [|discriminate]. destruct (x_conns x 2) as [q|] eqn:Eq; [|discriminate]. injection E as E1 E2 E3 E4 _ _.
  exists [], twice, x, 1, 2, k, q. repeat (split; [first [assumption | congruence]|]). discriminate.
Qed.
(** A channel which is no longer used is closed by the first check of the cache which finds it
    so, though the mark "garbage" is meant to leave it to the second (src/client.cpp:1316-1323). *)
Theorem C100_second_check_refuted : exists es x, reached [] (connect_a ++ [EUnwatch 0 0; EDrop 0 0] ++ es) x /\ es = [EClean [] Clean all_again] /\ x_chans x 0 = None /\ In (ODestroy 0 5 0) (x_out x).
Proof.
  set (h := connect_a ++ [EUnwatch 0 0; EDrop 0 0] ++ [EClean [] Clean all_again]).
  assert (E : match run (init []) h with Some x => Some (match x_chans x 0 with None => true | _ => false end, x_out x) | None => None end
     = Some (true, [ODown 0; OOpen 0 1; OCreate 0 0 (bs "a"); OStart 0 0; OUp 0; ODestroy 0 5 0])) by (vm_compute; reflexivity).
  destruct (run (init []) h) as [x|] eqn:R; [|discriminate]. injection E as E1 E2. exists [EClean [] Clean all_again], x. split; [split; [apply honest_runb_ok; vm_compute; reflexivity|exact R]|]. split; [reflexivity|].
  split; [destruct (x_chans x 0); [discriminate|reflexivity]|]. rewrite E2. cbn. auto 10.
Qed.

(** ** C101 *)

(** After close() nothing more is sent, no connection is made and no operation started, whatever
    happens; if each connection was the one which the context knows for its server. *)
Theorem C101_silent : forall ns es es' x again y, reached ns es x -> x_run x = true -> (forall n k, x_conns x n = Some k -> x_addr x (n_addr k) = Some n \/ (n_bev k = false /\ n_timer k = false)) ->
  reached ns (es ++ EClose again :: es') y ->
  exists x1 l, step x (EClose again) = Some x1 /\ x_out y = x_out x1 ++ l /\ Forall silent l /\ x_run y = false /\ (forall n k, x_conns y n = Some k -> n_bev k = false).
Proof.
  intros ns es es' x again y R Hr Hk (H & Ry). pose proof (reached_fine ns es x R) as G. destruct R as (_ & R). apply honest_app in H. destruct H as (_ & H). specialize (H x R). destruct H as (_ & H). rewrite run_app, R in Ry. cbn [run ChanModel.bind] in Ry.
  destruct (step_good false (EClose again) x G Logic.I ltac:(discriminate)) as (x1 & E1 & G1). rewrite E1 in Ry. cbn [ChanModel.bind] in Ry. destruct (close_quiet again x x1 G Hr Hk E1) as (Q & Nn).
  destruct (calm_run es' x1 y G1 (H x1 E1) Q Nn Ry) as ((l & El & Fl) & (Q1 & Q2)). exists x1, l. split; [exact E1|]. split; [exact El|]. split; [exact Fl|]. split; [exact Q1|]. intros n k Ek. apply (Q2 n k Ek).
Qed.
(** So it is if no connection was lost before. *)
Theorem C101_silent_never_lost : forall ns es es' x again y, reached ns es x -> x_run x = true -> Forall (fun e => match e with ELost _ _ _ | EClose _ => False | _ => True end) es ->
  reached ns (es ++ EClose again :: es') y ->
  exists x1 l, step x (EClose again) = Some x1 /\ x_out y = x_out x1 ++ l /\ Forall silent l /\ x_run y = false /\ (forall n k, x_conns y n = Some k -> n_bev k = false).
Proof.
  intros ns es es' x again y R Hr F Ry. apply (C101_silent ns es es' x again y R Hr); [|exact Ry]. intros n k Ek. left. destruct R as (H & R).
  assert (Rg : reg x) by (apply (regs_run es (init ns) x (init_good false ns) H); [intros i c E; discriminate|exact R|exact F]). apply Rg, Ek.
Qed.
(** Running operations of channels on such connections are told; none runs on. *)
Theorem C101_told : forall ns es x again i c n k o, reached ns es x -> x_run x = true -> x_chans x i = Some c -> In o (c_refs c) -> c_conn c = Some n -> x_conns x n = Some k -> x_addr x (n_addr k) = Some n ->
  life_of o (x_out x) = Some Running -> exists y, step x (EClose again) = Some y /\ life_of o (x_out y) = Some (if again o then Waiting else Ended).
Proof.
  intros ns es x again i c n k o R Hr Ec I En Ek Ha L. pose proof (reached_fine ns es x R) as G. destruct (step_good false (EClose again) x G Logic.I ltac:(discriminate)) as (y & Ey & Gy). exists y. split; [exact Ey|].
  destruct (g_op _ _ _ _ _ _ (step_keeps false (EClose again) x y G Logic.I ltac:(discriminate) Ey) i c o Ec I (fun F => F)) as (c' & Ec' & I' & _).
  pose proof (close_off again x y n k i c G Hr Ey Ek Ha Ec En c' Ec') as Na.
  destruct (told_off false (EClose again) x y i c c' o G Logic.I ltac:(discriminate) Ey Gy (fun F => F) ltac:(discriminate) Ec I L Ec' Na) as (b & Eb & Lb). cbn in Eb. injection Eb as <-. exact Lb.
Qed.
Example C101_meets : exists x y n k i c, reached [] connect_a x /\ x_run x = true /\ Forall (fun e => match e with ELost _ _ _ | EClose _ => False | _ => True end) connect_a /\
  reached [] (connect_a ++ EClose all_again :: [EExec (bs "a") None true; EFound 0 1 true; ETick 0 true; EDrop 0 0]) y /\ x_chans x i = Some c /\ In 0 (c_refs c) /\ c_conn c = Some n /\ x_conns x n = Some k /\ x_addr x (n_addr k) = Some n /\
  life_of 0 (x_out x) = Some Running.
Proof.
  destruct connect_a_reached as (x & R & _ & Hr & _). set (h := connect_a ++ EClose all_again :: [EExec (bs "a") None true; EFound 0 1 true; ETick 0 true; EDrop 0 0]).
  assert (Eh : honest_runb (init []) h = true) by (vm_compute; reflexivity). pose proof (honest_runb_ok h _ Eh) as Hh. destruct (C95_no_crash [] h Hh) as (y & Ry).
  assert (E : match run (init []) connect_a with Some x => match x_conns x 0, x_chans x 0 with Some k, Some c => Some (c_refs c, c_conn c, x_addr x (n_addr k), life_of 0 (x_out x)) | _, _ => None end | None => None end = Some ([0], Some 0, Some 0, Some Running)) by (vm_compute; reflexivity).
  rewrite (proj2 R) in E. destruct (x_conns x 0) as [k|] eqn:Ek; [|discriminate]. destruct (x_chans x 0) as [c|] eqn:Ec; [|discriminate]. injection E as E1 E2 E3 E4.
  exists x, y, 0, k, 0, c. rewrite E1. split; [exact R|]. split; [exact Hr|]. split; [repeat constructor|]. split; [split; assumption|]. split; [exact Ec|]. split; [left; reflexivity|]. split; [exact E2|]. split; [exact Ek|]. split; [exact E3|exact E4].
Qed.
(** A connection which the context does not know any more is left open, and goes on sending. *)
Theorem C101_silent_refuted : exists ns es again x y n k, reached ns (es ++ [EClose again]) x /\ x_run x = false /\ x_conns x n = Some k /\ n_bev k = true /\
  step x (EUp n) = Some y /\ exists z l, step y (ETick n true) = Some z /\ x_out z = x_out x ++ l /\ ~ Forall silent l.
Proof.
  set (h := twice ++ [EClose all_again]). assert (Hh : honest_run (init []) h) by (apply honest_runb_ok; vm_compute; reflexivity).
  assert (E : match run (init []) h with Some x => match x_conns x 1, step x (EUp 1) with Some k, Some y => match step y (ETick 1 true) with Some z => Some (x_run x, n_bev k, skipn (length (x_out x)) (x_out z), firstn (length (x_out x)) (x_out z), x_out x) | None => None end | _, _ => None end | None => None end
     = Some (false, true, [OEcho 1], [OOpen 0 1; OCreate 0 0 (bs "a"); OStart 0 0; OLost 0; OOpen 1 1; OOpen 2 1], [OOpen 0 1; OCreate 0 0 (bs "a"); OStart 0 0; OLost 0; OOpen 1 1; OOpen 2 1])) by (vm_compute; reflexivity).
  destruct (run (init []) h) as [x|] eqn:R; [|discriminate]. destruct (x_conns x 1) as [k|] eqn:Ek; [|discriminate]. destruct (step x (EUp 1)) as [y|] eqn:Ey; [|discriminate]. destruct (step y (ETick 1 true)) as [z|] eqn:Ez; [|discriminate].
  injection E as E1 E2 E3 E4 E5. exists [], twice, all_again, x, y, 1, k. split; [split; assumption|]. split; [exact E1|]. split; [exact Ek|]. split; [exact E2|]. split; [exact Ey|]. exists z, [OEcho 1]. split; [exact Ez|]. split.
  - rewrite <- (firstn_skipn (length (x_out x)) (x_out z)), E3, E4, E5. reflexivity.
  - intros F. inversion F as [|? ? F1 _]. exact F1.
Qed.

Print Assumptions C95_no_crash.
Print Assumptions C95_no_crash_refuted.
Print Assumptions C96_attended.
Print Assumptions C96_progress.
Print Assumptions C96_failed_build_refuted.
Print Assumptions C96_failed_holdoff_refuted.
Print Assumptions C96_given_server_refuted.
Print Assumptions C96_name_server_refuted.
Print Assumptions C97_order.
Print Assumptions C97_state.
Print Assumptions C97_kept.
Print Assumptions C97_exec.
Print Assumptions C97_again.
Print Assumptions C98_turns.
Print Assumptions C98_current.
Print Assumptions C98_kept.
Print Assumptions C98_new.
Print Assumptions C99_lost.
Print Assumptions C99_destroyed.
Print Assumptions C99_disconnect.
Print Assumptions C99_others.
Print Assumptions C100_shared.
Print Assumptions C100_apart.
Print Assumptions C100_dropped.
Print Assumptions C100_one_connection.
Print Assumptions C100_one_connection_refuted.
Print Assumptions C100_second_check_refuted.
Print Assumptions C101_silent.
Print Assumptions C101_silent_never_lost.
Print Assumptions C101_told.
Print Assumptions C101_silent_refuted.
