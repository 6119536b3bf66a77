(** Theorems about SharedPV. *)
From Coq Require Import List Bool Arith Lia.
From Verif Require Import ServerMonModel ServerMonSpec ServerMonProofs SharedPVModel SharedPVSpec SharedPVProofs.
Import ListNotations.

Section Claims.
  Variable V : Type.
  Variable assign : V -> V -> V.
  Variable clone : V -> V.
  Variable wants : nat -> V -> bool.
  Notation prun := (prun V assign clone wants).

  (** C29, as long as no queue was full: every subscriber is sent, or has queued,
      exactly what it was given, in order, less the updates with nothing it
      asked for, however many others there are and whatever they do.

      Missing: when the queue of any subscriber is full, see C29_refuted. *)
  Theorem C29_unmerged_partial es p l :
    prun (new_pv V) es = Some (p, l) -> unmerged V p -> no_resets V es ->
    forall id m, subs V p id = Some m ->
      sends_of V id l ++ map snd (pending (ref V) m) = filter (wants id) (offers_of V id l).
  Proof.
    intros R U NR id m H.
    assert (F : faithful V wants (heap V (new_pv V)) (subs V (new_pv V)) []) by (intro k; cbn; auto).
    pose proof (prun_faithful _ _ _ _ _ _ _ _ _ R (new_good V) U NR F id) as X. rewrite H in X. apply X.
  Qed.

  (** C29, C30: whatever the other subscribers do, and whatever is merged, the
      last value a subscriber has received of a field it asked for is that of the
      SharedPV, once its queue is empty.  [look] reads one field of an update:
      assigning overwrites what the right has, copying keeps everything, and an
      update which has the field is one the subscriber wants.

      Missing: that every single update sent is independent of the others, see
      C29_refuted; posts while joining, see C30_refuted. *)
  Theorem C29_converges_partial T (look : V -> option T) es1 id nack pipe qsize es2 pos es3 p1 l1 c1 p l m c :
    (forall a b, look (assign a b) = match look b with Some x => Some x | None => look a end) ->
    (forall a, look (clone a) = look a) -> (forall v, wants id v = false -> look v = None) ->
    prun (new_pv V) es1 = Some (p1, l1) -> current V p1 = Some c1 ->
    prun (new_pv V) (es1 ++ PNew V id nack pipe qsize :: es2 ++ PEnter V id pos :: es3) = Some (p, l) ->
    no_change V es2 -> ~ In (PClose V) es3 -> ~ In (PGone V id) es3 ->
    subs V p id = Some m -> typed (ref V) m = true -> pending (ref V) m = [] -> current V p = Some c ->
    latest V look (sends_of V id l) = look c.
  Proof.
    intros LA LC LW R1 CC R NC NX NG SI TT PE CF.
    apply prun_app in R. destruct R as (p1' & l1' & l2 & R1' & R & ->). assert (p1' = p1 /\ l1' = l1) as (-> & ->) by (split; congruence).
    pose proof (prun_good _ _ _ _ _ _ _ _ R1 (new_good V)) as G1. pose proof (prun_tidy _ _ _ _ _ _ _ _ R1 (new_good V) (new_tidy V)) as T1.
    apply prun_cons in R. destruct R as (p2 & l3 & l4 & S2 & R & ->).
    assert (N1 : subs V p1 id = None) by (cbn in S2; now destruct (subs V p1 id)).
    destruct (prun_unknown _ _ _ _ id _ _ _ _ R1 (new_good V) N1) as (_ & O1 & E1).
    destruct (new_coming _ _ _ _ _ _ _ _ _ _ _ _ _ S2 CC O1 E1) as (C2 & CO & NE). rewrite app_assoc.
    destruct (join_view _ _ _ _ _ look id LA LC LW _ _ _ _ _ _ _ _ _ (pstep_good _ _ _ _ _ _ _ _ S2 G1) (pstep_tidy _ _ _ _ _ _ _ _ S2 G1 T1) C2 (LC c1) CO (NE T look)
      (quiet_events _ _ NC) (stays_events _ _ _ NX NG) R m c SI TT CF) as (_ & K).
    unfold known in K. rewrite PE in K. cbn in K. rewrite app_nil_r in K. now rewrite latest_newest.
  Qed.

  (** C30: a subscription set up while the value is [c], with no post() and no
      close() before it has joined the subscribers, is given a copy of [c] and
      then a copy of every later post.

      Missing: posts while it is joining, see C30_refuted. *)
  Theorem C30_partial es1 id nack pipe qsize es2 pos es3 p1 l1 c p l :
    prun (new_pv V) es1 = Some (p1, l1) -> current V p1 = Some c ->
    prun (new_pv V) (es1 ++ PNew V id nack pipe qsize :: es2 ++ PEnter V id pos :: es3) = Some (p, l) ->
    no_change V es2 -> ~ In (PClose V) es3 -> ~ In (PGone V id) es3 -> accepted_sub V p id ->
    offers_of V id l = clone c :: map clone (posts V es3).
  Proof.
    intros R1 CC R NC NX NG (m & SI & TT).
    apply prun_app in R. destruct R as (p1' & l1' & l2 & R1' & R & ->). assert (p1' = p1 /\ l1' = l1) as (-> & ->) by (split; congruence).
    pose proof (prun_good _ _ _ _ _ _ _ _ R1 (new_good V)) as G1. pose proof (prun_tidy _ _ _ _ _ _ _ _ R1 (new_good V) (new_tidy V)) as T1.
    apply prun_cons in R. destruct R as (p2 & l3 & l4 & S2 & R & ->).
    assert (N1 : subs V p1 id = None) by (cbn in S2; now destruct (subs V p1 id)).
    destruct (prun_unknown _ _ _ _ id _ _ _ _ R1 (new_good V) N1) as (_ & O1 & E1).
    destruct (new_coming _ _ _ _ _ _ _ _ _ _ _ _ _ S2 CC O1 E1) as (C2 & CO & _). rewrite app_assoc.
    destruct (join _ _ _ _ _ _ _ _ _ _ _ _ _ (pstep_good _ _ _ _ _ _ _ _ S2 G1) (pstep_tidy _ _ _ _ _ _ _ _ S2 G1 T1) ltac:(congruence) CO (quiet_events _ _ NC) (stays_events _ _ _ NX NG) R) as (_ & B).
    exact (B m SI TT).
  Qed.

  (** the same for one set up before open() *)
  Theorem C30_waiting_partial es1 id nack pipe qsize es2 v es3 pos es4 p1 l1 p l :
    prun (new_pv V) es1 = Some (p1, l1) -> current V p1 = None ->
    prun (new_pv V) (es1 ++ PNew V id nack pipe qsize :: es2 ++ POpen V v :: es3 ++ PEnter V id pos :: es4) = Some (p, l) ->
    (forall x, ~ In (POpen V x) es2) -> ~ In (PGone V id) es2 ->
    no_change V es3 -> ~ In (PClose V) es4 -> ~ In (PGone V id) es4 -> accepted_sub V p id ->
    offers_of V id l = clone v :: map clone (posts V es4).
  Proof.
    intros R1 CC R NO NG2 NC NX NG (m & SI & TT).
    apply prun_app in R. destruct R as (p1' & l1' & l2 & R1' & R & ->). assert (p1' = p1 /\ l1' = l1) as (-> & ->) by (split; congruence).
    pose proof (prun_good _ _ _ _ _ _ _ _ R1 (new_good V)) as G1. pose proof (prun_tidy _ _ _ _ _ _ _ _ R1 (new_good V) (new_tidy V)) as T1.
    apply prun_cons in R. destruct R as (p2 & l3 & l4 & S2 & R & ->).
    assert (N1 : subs V p1 id = None) by (cbn in S2; now destruct (subs V p1 id)).
    destruct (prun_unknown _ _ _ _ id _ _ _ _ R1 (new_good V) N1) as (_ & O1 & E1).
    pose proof (new_waits _ _ _ _ _ _ _ _ _ _ _ _ S2 CC O1 E1) as W2.
    pose proof (pstep_good _ _ _ _ _ _ _ _ S2 G1) as G2. pose proof (pstep_tidy _ _ _ _ _ _ _ _ S2 G1 T1) as T2.
    apply prun_app in R. destruct R as (p3 & l5 & l6 & R3 & R & ->).
    pose proof (prun_waits _ _ _ _ _ _ _ _ _ _ R3 G2 T2 NO NG2 W2) as W3.
    pose proof (prun_good _ _ _ _ _ _ _ _ R3 G2) as G3. pose proof (prun_tidy _ _ _ _ _ _ _ _ R3 G2 T2) as T3.
    apply prun_cons in R. destruct R as (p4 & l7 & l8 & S4 & R & ->).
    destruct (open_coming _ _ _ _ _ _ _ _ _ _ S4 T3 W3) as (C4 & CO & _).
    destruct (join _ _ _ _ _ _ _ _ _ _ _ _ _ (pstep_good _ _ _ _ _ _ _ _ S4 G3) (pstep_tidy _ _ _ _ _ _ _ _ S4 G3 T3) ltac:(congruence) CO (quiet_events _ _ NC) (stays_events _ _ _ NX NG) R) as (_ & B).
    rewrite <- (B m SI TT). f_equal. now rewrite !app_assoc.
  Qed.

  (** the value is that of open() with every post assigned *)
  Theorem C30_value es1 v es2 p l :
    prun (new_pv V) (es1 ++ POpen V v :: es2) = Some (p, l) -> ~ In (PClose V) es2 ->
    current V p = Some (fold_left assign (posts V es2) (clone v)).
  Proof.
    intros R NC. apply prun_app in R. destruct R as (p1 & l1 & l2 & _ & R & _). apply prun_cons in R. destruct R as (p2 & l3 & l4 & S & R & _).
    apply (prun_value _ _ _ _ _ _ _ _ _ R); [|exact NC]. cbn in S. destruct (current V p1); [discriminate|]. injection S as <- <-. reflexivity.
  Qed.
End Claims.

(** C31: with the channels of one server, and no close() *)
Theorem C31_partial w es s o :
  crun new_chans es = Some (s, o) -> one_worker w es -> ~ In CClose es ->
  alternate First o.
Proof.
  intros R OW NC. refine (proj1 (proj2 (crun_due w es new_chans s o R NC OW _))). split; cbn; [exact I|tauto].
Qed.
(** onLastDisconnect is decided, and made, only when no channel is left *)
Theorem C31_last_partial w es s o s' :
  crun new_chans es = Some (s, o) -> one_worker w es -> ~ In CClose es ->
  cstep s (CCall w) = Some (s', [Last]) -> open_chans s = [].
Proof.
  intros R OW NC S. destruct (crun_due w es new_chans s o R NC OW) as ((B & IN) & _); [split; cbn; [exact I|tauto]|].
  cbn in S. destruct (busy s w) as [[|]|]; try discriminate. destruct (open_chans s) as [|(c, w') r]; [reflexivity|]. exfalso. specialize (IN c). rewrite B in IN. apply IN. now left.
Qed.

(** ** Cases *)
Definition two : Type := option nat * option nat.
Definition overlay (a b : two) : two :=
  (match fst b with Some x => Some x | None => fst a end, match snd b with Some x => Some x | None => snd a end).
Definition all_wanted (id : nat) (v : two) : bool := true.
Notation trun := (prun two overlay (fun x => x) all_wanted).
Definition starts (id : nat) : list (pevent two) :=
  [PSub two id (EMsg _ None (Some true) false); PSub two id (EMsgEnd _ false); PSub two id (ETask _)].
Definition more (id n : nat) : list (pevent two) := repeat (PSub two id (ETask _)) n.
Definition joins (id q : nat) : list (pevent two) := [PNew two id 0 false (Some q); PConnect two id; PEnter two id 0].
Definition sent_to (id : nat) (es : list (pevent two)) : option (list two) :=
  match trun (new_pv two) es with Some (_, l) => Some (sends_of two id l) | None => None end.

(** A slow subscriber (1, queue size 1) and one with room (2, queue size 4). *)
Definition shared_run : list (pevent two) :=
  [POpen two (Some 0, Some 0)] ++ joins 1 1 ++ joins 2 4 ++ starts 1 ++
  [PPost two (Some 1, None); PPost two (None, Some 2); PPost two (Some 3, None)] ++ starts 2 ++ more 2 3.

(** C29 does not hold: what subscriber 2 is sent depends on whether 1 is slow. *)
Theorem C29_refuted :
  ~ (forall es k id p l p' l', k <> id ->
       trun (new_pv two) es = Some (p, l) -> trun (new_pv two) (without two k es) = Some (p', l') ->
       sends_of two id l = sends_of two id l').
Proof.
  intro H.
  destruct (trun (new_pv two) shared_run) as [(p, l)|] eqn:E; [|vm_compute in E; discriminate].
  destruct (trun (new_pv two) (without two 1 shared_run)) as [(p', l')|] eqn:E'; [|vm_compute in E'; discriminate].
  specialize (H shared_run 1 2 p l p' l' ltac:(discriminate) E E').
  assert (A : sent_to 2 shared_run = Some (sends_of two 2 l)) by (unfold sent_to; now rewrite E).
  assert (B : sent_to 2 (without two 1 shared_run) = Some (sends_of two 2 l')) by (unfold sent_to; now rewrite E').
  rewrite <- H, <- A in B. vm_compute in B. discriminate.
Qed.
Example C29_refuted_case :
  sent_to 2 shared_run = Some [(Some 0, Some 0); (Some 3, Some 2); (None, Some 2); (Some 3, None)] /\
  sent_to 2 (without two 1 shared_run) = Some [(Some 0, Some 0); (Some 1, None); (None, Some 2); (Some 3, None)].
Proof. vm_compute. auto. Qed.

(** the same posts with room in both queues *)
Definition roomy_run : list (pevent two) :=
  [POpen two (Some 0, Some 0)] ++ joins 1 4 ++ joins 2 4 ++ starts 1 ++
  [PPost two (Some 1, None); PPost two (None, Some 2); PPost two (Some 3, None)] ++ starts 2 ++ more 2 1.
Example C29_unmerged_case :
  (exists p l m, trun (new_pv two) roomy_run = Some (p, l) /\ unmerged two p /\ no_resets two roomy_run /\ subs two p 2 = Some m /\
     sends_of two 2 l = [(Some 0, Some 0); (Some 1, None)] /\ map snd (pending (ref two) m) = [(None, Some 2); (Some 3, None)]).
Proof.
  destruct (trun (new_pv two) roomy_run) as [(p, l)|] eqn:E; [|vm_compute in E; discriminate].
  exists p, l. assert (E2 := E). vm_compute in E2. injection E2 as <- <-. eexists. split; [reflexivity|]. split; [|split; [|split; [reflexivity|split; reflexivity]]].
  - intros id m H. cbn in H. clear E. destruct id as [|[|[|id]]]; vm_compute in H; [discriminate H| | |discriminate H]; apply (f_equal (option_map (nsquash (ref two)))) in H; injection H as <-; reflexivity.
  - intros id H. cbn in H. repeat (destruct H as [H|H]; [discriminate|]). exact H.
Qed.
Example C29_converges_case :
  exists p l m, trun (new_pv two) shared_run = Some (p, l) /\ subs two p 2 = Some m /\ typed (ref two) m = true /\ pending (ref two) m = [] /\
    current two p = Some (Some 3, Some 2) /\ latest two fst (sends_of two 2 l) = Some 3 /\
    (forall a b, fst (overlay a b) = match fst b with Some x => Some x | None => fst a end).
Proof.
  destruct (trun (new_pv two) shared_run) as [(p, l)|] eqn:E; [|vm_compute in E; discriminate].
  exists p, l. assert (E2 := E). vm_compute in E2. injection E2 as <- <-. eexists. repeat (split; [reflexivity|]). reflexivity.
Qed.

(** what the examples look at, computed *)
Definition glance (es : list (pevent two)) (id : nat) :=
  match trun (new_pv two) es with
  | Some (p, l) => Some (current two p, option_map (fun m => typed (ref two) m) (subs two p id), offers_of two id l)
  | None => None
  end.
Lemma glance_some es id p l : trun (new_pv two) es = Some (p, l) ->
  glance es id = Some (current two p, option_map (fun m => typed (ref two) m) (subs two p id), offers_of two id l).
Proof. intros E. unfold glance. rewrite E. reflexivity. Qed.
Lemma typed_accepted p id : option_map (fun m => typed (ref two) m) (subs two p id) = Some true -> accepted_sub two p id.
Proof. unfold accepted_sub. destruct (subs two p id) as [m|]; [|discriminate]. injection 1 as H. exists m. auto. Qed.
Ltac seen G :=
  match type of G with glance ?es ?id = _ =>
    let v := eval vm_compute in (glance es id) in
    let V := fresh in assert (V : glance es id = v) by (vm_compute; reflexivity); rewrite V in G; clear V end.
Definition opened : list (pevent two) := [POpen two (Some 0, Some 0)].
Definition lost : list (pevent two) := [PConnect two 1; PPost two (Some 1, None)].
Definition kept : list (pevent two) := [PPost two (None, Some 2)].

(** C30 does not hold: a post made while the subscriber joins is lost to it, though made after it was set up. *)
Theorem C30_refuted :
  ~ (forall es1 id nack pipe qsize es2 pos es3 p1 l1 c p l,
       trun (new_pv two) es1 = Some (p1, l1) -> current two p1 = Some c ->
       trun (new_pv two) (es1 ++ PNew two id nack pipe qsize :: es2 ++ PEnter two id pos :: es3) = Some (p, l) ->
       ~ In (PClose two) es2 -> ~ In (PClose two) es3 -> ~ In (PGone two id) es3 -> accepted_sub two p id ->
       offers_of two id l = c :: posts two (es2 ++ es3)).
Proof.
  intro H.
  destruct (trun (new_pv two) opened) as [(p1, l1)|] eqn:E1; [|vm_compute in E1; discriminate].
  destruct (trun (new_pv two) (opened ++ PNew two 1 0 false (Some 4) :: lost ++ PEnter two 1 0 :: kept)) as [(p, l)|] eqn:E; [|vm_compute in E; discriminate].
  pose proof (glance_some opened 1 p1 l1 E1) as G1. pose proof (glance_some _ 1 p l E) as G.
  seen G1. seen G. injection G1 as C1 T1 O1. injection G as C T O.
  specialize (H opened 1 0 false (Some 4) lost 0 kept p1 l1 (Some 0, Some 0) p l E1 (eq_sym C1) E).
  assert (X : offers_of two 1 l = (Some 0, Some 0) :: posts two (lost ++ kept)).
  { apply H; [..|apply typed_accepted; symmetry; exact T];
      cbn; intro X; repeat (destruct X as [X|X]; [discriminate|]); exact X. }
  rewrite <- O in X. discriminate.
Qed.
Definition late : list (pevent two) := [POpen two (Some 0, Some 0); PPost two (Some 7, None)] ++ PNew two 1 0 false (Some 1) :: [PConnect two 1] ++ PEnter two 1 0 :: [PPost two (Some 1, None); PPost two (None, Some 2)].
Example C30_case :
  exists p l, trun (new_pv two) late = Some (p, l) /\
    accepted_sub two p 1 /\ offers_of two 1 l = [(Some 7, Some 0); (Some 1, None); (None, Some 2)].
Proof.
  destruct (trun (new_pv two) late) as [(p, l)|] eqn:E; [|vm_compute in E; discriminate].
  pose proof (glance_some _ 1 p l E) as G. seen G. injection G as C T O. exists p, l.
  split; [reflexivity|]. split; [apply typed_accepted; symmetry; exact T|symmetry; exact O].
Qed.
Definition early : list (pevent two) := [] ++ PNew two 1 0 false (Some 1) :: [] ++ POpen two (Some 0, Some 0) :: [PConnect two 1] ++ PEnter two 1 0 :: [PPost two (Some 1, None)].
Example C30_waiting_case :
  exists p l, trun (new_pv two) early = Some (p, l) /\
    accepted_sub two p 1 /\ offers_of two 1 l = [(Some 0, Some 0); (Some 1, None)].
Proof.
  destruct (trun (new_pv two) early) as [(p, l)|] eqn:E; [|vm_compute in E; discriminate].
  pose proof (glance_some _ 1 p l E) as G. seen G. injection G as C T O. exists p, l.
  split; [reflexivity|]. split; [apply typed_accepted; symmetry; exact T|symmetry; exact O].
Qed.

(** C31 does not hold with close(): two channels, two calls of onLastDisconnect *)
Theorem C31_close_refuted :
  ~ (forall w es s o, crun new_chans es = Some (s, o) -> one_worker w es -> alternate First o).
Proof.
  intro H. specialize (H 0 [CAttach 1 0; CCall 0; CAttach 2 0; CClose; CClosed 1 0; CCall 0; CClosed 2 0; CCall 0] _ [First; Last; Last] eq_refl). cbn in H. apply H.
  repeat constructor.
Qed.
(** nor with two servers: the call decided first may be made last *)
Theorem C31_servers_refuted :
  ~ (forall es s o, crun new_chans es = Some (s, o) -> ~ In CClose es -> alternate First o).
Proof.
  intro H. specialize (H [CAttach 1 0; CCall 0; CClosed 1 0; CAttach 2 1; CCall 1; CCall 0] _ [First; First; Last] eq_refl). cbn in H. apply H.
  intro X. repeat (destruct X as [X|X]; [discriminate|]). exact X.
Qed.
Definition calls : list cevent := [CAttach 1 0; CCall 0; CAttach 2 0; CClosed 1 0; CClosed 2 0; CCall 0; CAttach 3 0; CCall 0; CClosed 3 0].
Example C31_case :
  exists s s', crun new_chans calls = Some (s, [First; Last; First]) /\ cstep s (CCall 0) = Some (s', [Last]).
Proof.
  assert (V : match crun new_chans calls with
              | Some (s, o) => Some (o, option_map snd (cstep s (CCall 0)))
              | None => None
              end = Some ([First; Last; First], Some [Last])) by (vm_compute; reflexivity).
  destruct (crun new_chans calls) as [(s, o)|]; [|discriminate]. injection V as -> V. exists s. cbn [cstep] in *.
  destruct (busy s 0) as [n|]; [|discriminate]. cbn in V. injection V as ->. eexists. auto.
Qed.

Print Assumptions C31_partial.
Print Assumptions C31_last_partial.
Print Assumptions C29_refuted.
Print Assumptions C30_refuted.
Print Assumptions C31_close_refuted.
Print Assumptions C31_servers_refuted.
Print Assumptions C29_unmerged_partial.
Print Assumptions C29_converges_partial.
Print Assumptions C30_partial.
Print Assumptions C30_waiting_partial.
Print Assumptions C30_value.
