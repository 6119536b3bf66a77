(** C40: tracking of servers; C73: hurrying of searches; C74: discover(). *)
From Coq Require Import ZArith List Bool Lia ZifyBool ZifyNat.
From Verif Require Import Base BaseProofs WireModel WireSpec WireProofs UdpModel UdpSpec UdpProofs UdpProps SearchModel SearchSpec SearchWire SearchReply BeaconModel BeaconSpec BeaconProofs.
Import ListNotations.
Local Open Scope Z_scope.

(** The announcements about one server, over any history of beacons, clock steps and timers, are: online,
    lost as what it came online as, online, ... *)
Theorem C40_alternate : forall h c k, ran h c -> exists s, alternate None (all_news k h) s.
Proof. intros h c k R. exists (now_as k c). apply (ran_inv _ _ R). Qed.

(** 20000 servers are known *)
Definition full (h : history) : Prop := exists ks, NoDup ks /\ zlen ks = 20000 /\ Forall (fun k => known k h <> None) ks.

(** A beacon of a server which is known as that is silent.  If it was known as something else, then that is
    announced to be lost, and this one to be online.  If it was not known then it is announced, unless too
    many are known. *)
Theorem C40_beacon : forall h c now src b o c', ran h c -> step c (Rx now src b) = (o, c') ->
  let here := Discovered true (b_version b) (Some src) (b_proto b) (b_server b, b_port b) (b_guid b) now in
  match known (key_of b) h with
  | Some (v, g) =>
    if list_eq_dec Z.eq_dec g (b_guid b) then
      if Z.eq_dec v (b_version b) then told o = []
      else told o = [Discovered false v (Some src) (b_proto b) (b_server b, b_port b) g now; here]
    else told o = [Discovered false v (Some src) (b_proto b) (b_server b, b_port b) g now; here]
  | None => (full h -> told o = []) /\ (~ full h -> told o = [here])
  end.
Proof.
  intros h c now src b o c' R E here. pose proof (ran_inv _ _ R) as I. destruct (on_beacon_cases _ _ _ _ _ _ E) as [C _]. cbv zeta in C.
  rewrite (known_now _ _ _ I). unfold now_as. destruct (find (key_of b) (track c)) as [i|] eqn:F; cbn [option_map].
  - destruct C as [TO _]. unfold id_of. destruct (list_eq_dec Z.eq_dec (i_guid i) (b_guid b)) as [EG|NG].
    + destruct (Z.eq_dec (i_version i) (b_version b)) as [EV|NV].
      * rewrite (proj2 (same_dec i b)) in TO; auto. unfold id_of, ident_of. congruence.
      * replace (negb (str_eqb (i_guid i) (b_guid b)) || negb (i_version i =? b_version b)) with true in TO; auto.
        symmetry. apply orb_true_iff. right. apply negb_true_iff, Z.eqb_neq. exact NV.
    + replace (negb (str_eqb (i_guid i) (b_guid b)) || negb (i_version i =? b_version b)) with true in TO; auto.
      symmetry. apply orb_true_iff. left. apply negb_true_iff. destruct (str_eqb _ _) eqn:EQ; auto. apply str_eqb_eq in EQ. contradiction.
  - assert (FULL : full h <-> zlen (track c) >= track_limit).
    { split.
      - intros (ks & ND & L & FA). assert (IN : incl ks (map fst (track c))).
        { intros k K. rewrite Forall_forall in FA. specialize (FA k K). rewrite (known_now _ _ _ I) in FA. apply find_in. unfold now_as in FA. destruct (find k (track c)); [discriminate|contradiction FA; reflexivity]. }
        pose proof (NoDup_incl_length ND IN) as LE. rewrite map_length in LE. unfold zlen in *. unfold track_limit. lia.
      - intros G. exists (map fst (track c)). split; [apply I|]. split; [rewrite zlen_map; pose proof (inv_limit _ _ I); unfold track_limit in *; lia|].
        apply Forall_forall. intros k K. rewrite (known_now _ _ _ I). unfold now_as. apply find_in in K. destruct (find k (track c)); [discriminate|congruence]. }
    rewrite FULL. destruct (Z.geb_spec (zlen (track c)) track_limit).
    + destruct C as [-> _]. split; [reflexivity|lia].
    + destruct C as [TO _]. split; [lia|auto].
Qed.

(** The timer announces the loss of exactly those servers which are known and were not heard of in the
    last six minutes (or last heard of more than 15 seconds in the future, after the clock was set back). *)
Theorem C40_timeout : forall h c now o c', ran h c -> step c (Clean now) = (o, c') -> forall k,
  news k (told o) = match known k h, last_heard k h with
                    | Some x, Some t => if Z_lt_dec (s 360) (now - t) then [(false, x)] else if Z_lt_dec (now - t) (- s 15) then [(false, x)] else []
                    | _, _ => []
                    end.
Proof.
  intros h c now o c' R E k. pose proof (ran_inv _ _ R) as I. cbn [step] in E. destruct (clean_all now c (track c)) as [o1 l] eqn:CL. inversion E. subst o1 c'.
  destruct (clean_find _ _ _ _ _ (inv_nodup _ _ I) CL k) as [_ N]. rewrite N, (known_now _ _ _ I). unfold now_as. destruct (find k (track c)) as [i|] eqn:F; [|reflexivity].
  cbn [option_map]. rewrite (inv_heard _ _ I _ _ F). unfold stale, clean_interval, sec, s. repeat match goal with |- context [Z_lt_dec ?a ?b] => destruct (Z_lt_dec a b) end; match goal with |- (if ?x then _ else _) = _ => destruct x eqn:X end; auto; exfalso; lia.
Qed.
(** These announcements name no peer, and the time. *)
Theorem C40_timeout_is : forall h c now o c' d, ran h c -> step c (Clean now) = (o, c') -> In d (told o) -> d_online d = false /\ d_peer d = None /\ d_time d = now.
Proof.
  intros h c now o c' d R E. cbn [step] in E. destruct (clean_all now c (track c)) as [o1 l] eqn:CL. inversion E. subst o1. clear - CL. revert o l CL. induction (track c) as [|[k i] t IH]; intros o l CL; cbn [clean_all] in CL.
  - inversion CL. intros [].
  - destruct (clean_all now c t) as [o1 r]. destruct (stale now i); inversion CL; subst; [|eauto]. cbn [told server_event app]. intros [<-|H]; [auto|eauto].
Qed.
(** Nothing else announces anything. *)
Theorem C40_silent : forall c e o c', step c e = (o, c') -> told o <> [] -> (exists now src b, e = Rx now src b) \/ exists now, e = Clean now.
Proof.
  intros c [now src b|now|now| |op|op] o c' E T; eauto; exfalso; apply T; cbn [step] in E; try (inversion E; reflexivity).
  pose proof (poke_told now c) as P. rewrite E in P. exact P.
Qed.

(** Never more than 20000 are known. *)
Theorem C40_limit : forall h c ks, ran h c -> NoDup ks -> Forall (fun k => known k h <> None) ks -> zlen ks <= 20000.
Proof.
  intros h c ks R ND FA. pose proof (ran_inv _ _ R) as I. assert (IN : incl ks (map fst (track c))).
  { intros k K. rewrite Forall_forall in FA. specialize (FA k K). rewrite (known_now _ _ _ I) in FA. apply find_in. unfold now_as in FA. destruct (find k (track c)); [discriminate|contradiction FA; reflexivity]. }
  pose proof (NoDup_incl_length ND IN) as LE. rewrite map_length in LE. pose proof (inv_limit _ _ I). unfold zlen, track_limit in *. lia.
Qed.

(** Each announcement goes to the discover() operations then in progress, and to no other. *)
Theorem C74_told : forall h c e o c' ops d op, ran h c -> step c e = (o, c') -> In (Told ops d) o -> (In op ops <-> active op h).
Proof.
  intros h c e o c' ops d op R E IN. pose proof (ran_inv _ _ R) as I. rewrite <- (inv_discs _ _ I op). assert (X : ops = discs c); [|subst; reflexivity].
  assert (P : forall now x, In (Told ops d) (fst (poke now x)) -> False).
  { intros now x. unfold poke. destruct (npoked x); [destruct (_ <? _)|]; cbn; intuition discriminate. }
  destruct e as [now src b|now|now| |op'|op']; cbn [step] in E; try (inversion E; subst; destruct IN; fail).
  - unfold on_beacon in E. cbv zeta in E. destruct (find _ _) as [i|].
    + destruct (_ || _).
      * set (c1 := Ctx _ _ _ _) in E. specialize (P now c1). destruct (poke now c1) as [o3 c2]. inversion E. subst o. cbn [server_event app] in IN. cbn [fst] in P. destruct IN as [IN|[IN|IN]]; [inversion IN; auto|inversion IN; auto|contradiction].
      * inversion E. subst o. destruct IN.
    + destruct (_ >=? _); [inversion E; subst o; destruct IN|]. set (c1 := Ctx _ _ _ _) in E. specialize (P now c1). destruct (poke now c1) as [o3 c2]. inversion E. subst o. cbn [server_event app] in IN. cbn [fst] in P. destruct IN as [IN|IN]; [inversion IN; auto|contradiction].
  - pose proof (clean_told now c (track c) (Told ops d)) as CT. destruct (clean_all now c (track c)) as [o1 l]. inversion E. subst o1. destruct (CT IN) as (d' & H). inversion H. auto.
  - exfalso. apply (P now c). rewrite E. exact IN.
Qed.
(** a history, from what happens *)
Fixpoint run (c : ctx) (es : list event) (h : history) : history * ctx :=
  match es with
  | [] => (h, c)
  | e :: l => let '(o, c') := step c e in run c' l ((e, o) :: h)
  end.
Lemma run_ran : forall es c h h' c', ran h c -> run c es h = (h', c') -> ran h' c'.
Proof.
  induction es as [|e es IH]; intros c h h' c' R E; cbn [run] in E; [inversion E; subst; auto|]. destruct (step c e) as [o c1] eqn:ST. eapply IH; [|exact E]. eapply ran_step; eauto.
Qed.
(** A discover() is not told about a server which was known before it started, however often that one
    sends beacons: it is not so that each operation in progress was told of each server known. *)
Definition told_to (op : Z) (k : key) (h : history) : Prop :=
  exists e o ops d, In (e, o) h /\ In (Told ops d) o /\ In op ops /\ about k d /\ d_online d = true.
Theorem C74_late_refuted : ~ forall h c op k, ran h c -> active op h -> known k h <> None -> told_to op k h.
Proof.
  intros A. set (b := {| b_version := 2; b_guid := [7]; b_server := SA_in [10; 0; 0; 1]; b_port := 5075; b_proto := t_tcp |}). set (src := (SA_in [10; 0; 0; 1], 5076) : endpoint).
  destruct (run new_ctx [Rx 0 src b; Start 3; Rx (s 15) src b] []) as [h c] eqn:E. pose proof (run_ran _ _ _ _ _ ran_new E) as R. vm_compute in E. injection E as <- <-.
  match type of R with ran ?h ?c => assert (T : told_to 3 (key_of b) h) end.
  { eapply A; [exact R|cbn; auto|]. vm_compute. discriminate. }
  destruct T as (e & o & ops & d & [H|[H|[H|[]]]] & T & IO & _); injection H as <- <-; cbn [In] in T; try contradiction. repeat (destruct T as [T|T]; try discriminate; try contradiction); injection T as <- _; destruct IO.
Qed.

(** The beacons of a server are read as those of a server at the address they come from, with its port and
    GUID; their sequence number makes no difference. *)
Definition beacon_bytes (guid : list Z) (seq change port : Z) : list Z :=
  guid ++ ([0] ++ enc_u true 1 seq ++ enc_u true 2 change) ++ (v4_prefix ++ [0; 0; 0; 0]) ++ enc_u true 2 port ++ (3 :: t_tcp) ++ [255].
Lemma beacon_is : forall host guid seq change port, length guid = 12%nat -> 0 <= port < 65536 ->
  beacon_msg host guid seq change port = header_bytes cmd_beacon flag_Server (zlen (beacon_bytes guid seq change port)) ++ beacon_bytes guid seq change port /\
  message 2 true cmd_beacon (beacon_bytes guid seq change port) (beacon_msg host guid seq change port) /\
  beacon_body true guid any4 port tcp (beacon_bytes guid seq change port) /\ zlen (beacon_bytes guid seq change port) = 39.
Proof.
  intros host guid seq change port LG RP. set (body := beacon_bytes guid seq change port).
  assert (L : zlen body = 39).
  { unfold body, beacon_bytes. rewrite !zlen_app. assert (LU : forall n v, zlen (enc_u true n v) = Z.of_nat n) by (intros; unfold zlen; rewrite enc_u_length; reflexivity). rewrite !LU. unfold zlen at 1. rewrite LG. reflexivity. }
  assert (E : beacon_msg host guid seq change port = header_bytes cmd_beacon flag_Server (zlen body) ++ body).
  { unfold beacon_msg, to_wire_cstr. change (c_str t_tcp) with t_tcp. cbv zeta. change (WB (repeat 0 8) None true false) with (outbuf (repeat 0 8) true).
    rewrite mem_out, !to_wire_u_out, any_out, to_wire_u_out, to_wire_str_out, to_wire_u_out by (unfold zlen; cbn; lia). cbn [outbuf wd]. rewrite header_lim.
    change (enc_str true t_tcp) with (3 :: t_tcp). rewrite (enc_u_1 true 255) by lia. rewrite (enc_u_1 true 0) by lia. rewrite <- !app_assoc.
    match goal with |- patch 0 ?h ?d = _ => replace d with ([] ++ repeat 0 8 ++ body) by (unfold body, beacon_bytes; rewrite <- !app_assoc; reflexivity) end.
    replace (zlen ([] ++ repeat 0 8 ++ body) - 8) with (zlen body) by (cbn [app]; rewrite zlen_app; change (zlen (repeat 0 8)) with 8; lia).
    change 0%nat with (@length Z []) at 1. rewrite patch_mid by (rewrite header_len; reflexivity). reflexivity. }
  split; auto. split; [|split; auto].
  - exists (zlen body), (Z.lor flag_Server 128), (enc_u true 4 (zlen body)). split; [rewrite E; unfold header_bytes; rewrite <- app_assoc; reflexivity|]. do 4 (split; [first [discriminate|reflexivity]|]).
    split; [apply rep_enc; rewrite L; split; [lia|reflexivity]|lia].
  - exists ([0] ++ enc_u true 1 seq ++ enc_u true 2 change), (v4_prefix ++ [0; 0; 0; 0]), (enc_u true 2 port), (3 :: t_tcp), [255].
    split; [reflexivity|]. split; auto. split; [rewrite !app_length, !enc_u_length; reflexivity|]. split; [constructor; reflexivity|]. split; [apply rep_enc; exact RP|].
    change (3 :: t_tcp) with ([zlen tcp] ++ tcp). constructor. constructor. unfold zlen. cbn. lia.
Qed.
Theorem C40_server : forall host host' guid seq change port g src dest local junk, length guid = 12%nat -> is_bytes guid -> 0 <= port < 65536 ->
  received src dest (beacon_msg host guid seq change port) junk ->
  snd (handle_one host' g src dest local (beacon_msg host guid seq change port) junk) =
  Beacon_ {| b_version := 2; b_guid := guid; b_server := src; b_port := port; b_proto := tcp |}.
Proof.
  intros host host' guid seq change port g src dest local junk LG BG RP RC. destruct (beacon_is host guid seq change port LG RP) as (_ & M & BB & _).
  apply (C41_beacon host' g src dest local _ junk _ RC). exists 2, guid, any4, port, tcp. split; [|reflexivity]. exists true, (beacon_bytes guid seq change port). split; auto.
Qed.
(** and there is nothing wrong with those messages, in a datagram *)
Theorem C40_server_bytes : forall host guid seq change port, length guid = 12%nat -> is_bytes guid -> 0 <= port < 65536 ->
  is_bytes (beacon_msg host guid seq change port) /\ zlen (beacon_msg host guid seq change port) = 47.
Proof.
  intros host guid seq change port LG BG RP. destruct (beacon_is host guid seq change port LG RP) as (-> & _ & _ & L). split.
  - apply is_bytes_app. split; [unfold header_bytes; apply is_bytes_app; split; [apply all_bytes; reflexivity|apply enc_bytes]|].
    unfold beacon_bytes. repeat match goal with |- is_bytes (_ ++ _) => apply is_bytes_app; split end; auto using enc_bytes; apply all_bytes; reflexivity.
  - rewrite zlen_app, L. unfold zlen. rewrite header_len. reflexivity.
Qed.
(** So a server which sends a beacon at least every six minutes, all of them received, the clock never set
    back, is announced when it is first heard of and never lost while its GUID stays the same. *)
Theorem C40_steady : forall h c now o c' k t x, ran h c -> step c (Clean now) = (o, c') -> known k h = Some x -> last_heard k h = Some t -> 0 <= now - t <= s 360 ->
  known k ((Clean now, o) :: h) = Some x.
Proof.
  intros h c now o c' k t x R E K LH RG. pose proof (C40_timeout h c now o c' R E k) as N. rewrite K, LH in N.
  destruct (Z_lt_dec (s 360) (now - t)); [lia|]. destruct (Z_lt_dec (now - t) (- s 15)); [unfold s in *; lia|].
  unfold known in *. cbn [all_news]. rewrite N, app_nil_r. exact K.
Qed.

(** ** Hurrying *)
(** what poke() and onBeacon() do to the state which concerns hurrying *)
Lemma no_hurry_told : forall ops d, ~ In Hurry [Told ops d].
Proof. intros ops d [H|[]]. discriminate. Qed.
Lemma on_beacon_poke : forall now src b c o c', on_beacon now src b c = (o, c') ->
  (told o = [] /\ ~ In Hurry o /\ npoked c' = npoked c /\ last_poke c' = last_poke c) \/
  ((exists d, In d (told o) /\ d_online d = true) /\ (In Hurry o <-> In Hurry (fst (poke now c))) /\ npoked c' = npoked (snd (poke now c)) /\ last_poke c' = last_poke (snd (poke now c))).
Proof.
  intros now src b c o c' E. unfold on_beacon in E. cbv zeta in E.
  assert (P : forall t, let c1 := Ctx t (discs c) (npoked c) (last_poke c) in fst (poke now c1) = fst (poke now c) /\ npoked (snd (poke now c1)) = npoked (snd (poke now c)) /\ last_poke (snd (poke now c1)) = last_poke (snd (poke now c))).
  { intros t c1. unfold poke, c1. cbn [npoked last_poke]. destruct (npoked c) eqn:N; [destruct (_ <? _)|]; cbn [fst snd npoked last_poke]; rewrite ?N; auto. }
  destruct (find _ _) as [i|].
  - destruct (_ || _).
    + match type of E with context [poke now (Ctx ?t _ _ _)] => specialize (P t) end. cbv zeta in P. destruct (poke now (Ctx _ _ _ _)) as [o3 c2]. cbn [fst snd] in P. destruct P as (P1 & P2 & P3). inversion E. subst o c2. right.
      split; [eexists; cbn [told server_event app]; split; [right; left; reflexivity|reflexivity]|]. rewrite <- P1, <- P2, <- P3. split; auto. cbn [server_event app In]. intuition discriminate.
    + inversion E. left. cbn. auto.
  - destruct (_ >=? _); [inversion E; left; cbn; subst; auto|].
    match type of E with context [poke now (Ctx ?t _ _ _)] => specialize (P t) end. cbv zeta in P. destruct (poke now (Ctx _ _ _ _)) as [o3 c2]. cbn [fst snd] in P. destruct P as (P1 & P2 & P3). inversion E. subst o c2. right.
    split; [eexists; cbn [told server_event app]; split; [left; reflexivity|reflexivity]|]. rewrite <- P1, <- P2, <- P3. split; auto. cbn [server_event app In]. intuition discriminate.
Qed.
Lemma poke_state : forall now c, (In Hurry (fst (poke now c)) /\ npoked (snd (poke now c)) = nBuckets /\ last_poke (snd (poke now c)) = now) \/
  (~ In Hurry (fst (poke now c)) /\ snd (poke now c) = c).
Proof. intros. unfold poke. destruct (npoked c); [destruct (_ <? _)|]; cbn [fst snd In npoked last_poke]; auto. Qed.
Lemma hinv_quiet : forall h c e o c', hinv h c -> ~ In Hurry o -> e <> Tick -> npoked c' = npoked c -> last_poke c' = last_poke c -> hinv ((e, o) :: h) c'.
Proof.
  intros h c e o c' I N NT E1 E2.
  assert (L : last_hurry ((e, o) :: h) = last_hurry h).
  { cbn [last_hurry]. destruct (in_dec _ Hurry o); [contradiction|]. destruct (clock e); destruct (last_hurry h) as [[t n']|]; auto; destruct e; auto; contradiction. }
  constructor; rewrite L, E1, E2; apply I.
Qed.
Lemma hinv_step : forall h c e o c', hinv h c -> step c e = (o, c') -> hinv ((e, o) :: h) c'.
Proof.
  intros h c e o c' I E.
  assert (HU : forall t c1, clock e = Some t -> In Hurry o -> npoked c1 = nBuckets -> last_poke c1 = t -> hinv ((e, o) :: h) c1).
  { intros t c1 CK IN E1 E2. assert (L : last_hurry ((e, o) :: h) = Some (t, O)) by (cbn [last_hurry]; rewrite CK; destruct (in_dec _ Hurry o); [reflexivity|contradiction]).
    constructor; rewrite L; [|discriminate]. intros t' n H. inversion H. subst. rewrite E1. split; auto. }
  destruct e as [now src b|now|now| |op|op]; cbn [step] in E.
  - destruct (on_beacon_poke _ _ _ _ _ _ E) as [(_ & N & E1 & E2)|(_ & N & E1 & E2)]; [eapply hinv_quiet; eauto; discriminate|].
    destruct (poke_state now c) as [(P & P1 & P2)|(P & P1)].
    + eapply HU; [reflexivity|tauto|congruence|congruence].
    + rewrite P1 in *. eapply hinv_quiet; eauto; try tauto; discriminate.
  - pose proof (clean_told now c (track c) Hurry) as CT. destruct (clean_all now c (track c)) as [o1 l]. inversion E. subst. eapply hinv_quiet; eauto; [|discriminate]. intros IN. destruct (CT IN). discriminate.
  - destruct (poke_state now c) as [(P & P1 & P2)|(P & P1)]; rewrite E in *; cbn [fst snd] in *.
    + eapply HU; eauto. reflexivity.
    + subst. eapply hinv_quiet; eauto; discriminate.
  - inversion E. subst. assert (L : last_hurry ((Tick, []) :: h) = match last_hurry h with Some (t, n) => Some (t, S n) | None => None end) by reflexivity.
    constructor; rewrite L; cbn [npoked last_poke].
    + intros t n H. destruct (last_hurry h) as [[t' n']|] eqn:LH; inversion H. subst. destruct (hinv_some _ _ I _ _ LH) as [-> ->]. split; auto. unfold nBuckets. lia.
    + intros H. destruct (last_hurry h) as [[t' n']|] eqn:LH; inversion H. destruct (hinv_none _ _ I LH) as [-> ->]. auto.
  - inversion E. subst. eapply hinv_quiet; eauto; first [discriminate|intros []].
  - inversion E. subst. eapply hinv_quiet; eauto; first [discriminate|intros []].
Qed.
Lemma ran_hinv : forall h c, ran h c -> hinv h c.
Proof. induction 1; [constructor; [discriminate|auto]|eapply hinv_step; eauto]. Qed.

(** hurryUp() has an effect exactly when 30 seconds have passed since it last had one, and all of the 30
    expirations of the search timer due to that are over. *)
Theorem C73_hurry : forall h c now o c', ran h c -> step c (HurryUp now) = (o, c') ->
  (In Hurry o <-> match last_hurry h with Some (t, n) => (30 <= n)%nat /\ now - t >= s 30 | None => now >= s 30 end).
Proof. intros h c now o c' R E. pose proof (poke_hurry h c now (ran_hinv _ _ R)) as P. cbn [step] in E. rewrite E in P. exact P. Qed.
(** An announcement of a new server has the same effect as hurryUp(); nothing else has. *)
Theorem C73_online : forall h c now src b o c', ran h c -> step c (Rx now src b) = (o, c') ->
  (In Hurry o <-> (exists d, In d (told o) /\ d_online d = true) /\ In Hurry (fst (step c (HurryUp now)))).
Proof.
  intros h c now src b o c' R E. cbn [step] in *. destruct (on_beacon_poke _ _ _ _ _ _ E) as [(T & N & _)|(T & N & _)].
  - split; [contradiction|]. intros [(d & D & _) _]. rewrite T in D. destruct D.
  - rewrite N. tauto.
Qed.
Theorem C73_only : forall c e o c', step c e = (o, c') -> In Hurry o -> (exists now src b, e = Rx now src b) \/ exists now, e = HurryUp now.
Proof.
  intros c [now src b|now|now| |op|op] o c' E IN; eauto; exfalso; cbn [step] in E; try (inversion E; subst; destruct IN; fail).
  pose proof (clean_told now c (track c) Hurry) as CT. destruct (clean_all now c (track c)) as [o1 l]. inversion E. subst. destruct (CT IN). discriminate.
Qed.
(** So two effects are at least 30 seconds apart. *)
Lemma later_hurry : forall h1 h0 c e1 o1 t1, ran (h1 ++ (e1, o1) :: h0) c -> clock e1 = Some t1 -> In Hurry o1 -> exists t n, last_hurry (h1 ++ (e1, o1) :: h0) = Some (t, n) /\ t1 <= t.
Proof.
  induction h1 as [|[e o] h1 IH]; intros h0 c e1 o1 t1 R CK IN; cbn [app] in *.
  - exists t1, O. split; [|lia]. cbn [last_hurry]. rewrite CK. destruct (in_dec _ Hurry o1); [reflexivity|contradiction].
  - inversion R as [|h c0 e' o' c' R0 ST]. subst. destruct (IH _ _ _ _ _ R0 CK IN) as (t & n & L & LE). cbn [last_hurry]. rewrite L.
    destruct (clock e) as [t'|] eqn:CE; [|eauto]. destruct (in_dec _ Hurry o) as [IO|NO]; [|eauto]. exists t', O. split; auto.
    assert (M : may_hurry t' (h1 ++ (e1, o1) :: h0)).
    { destruct (C73_only _ _ _ _ ST IO) as [(now & src & b & ->)|(now & ->)]; inversion CE; subst now.
      - apply (C73_online _ _ _ _ _ _ _ R0 ST) in IO. destruct IO as [_ IO]. cbn [step] in IO. apply (poke_hurry _ _ _ (ran_hinv _ _ R0)) in IO. exact IO.
      - apply (poke_hurry _ _ t' (ran_hinv _ _ R0)). cbn [step] in ST. rewrite ST. exact IO. }
    unfold may_hurry in M. rewrite L in M. unfold s in M. lia.
Qed.
Theorem C73_rate : forall h2 h1 h0 c e2 o2 t2 e1 o1 t1, ran (h2 ++ (e2, o2) :: h1 ++ (e1, o1) :: h0) c ->
  In Hurry o1 -> clock e1 = Some t1 -> In Hurry o2 -> clock e2 = Some t2 -> t2 - t1 >= s 30.
Proof.
  intros h2. induction h2 as [|[e o] h2 IH]; intros h1 h0 c e2 o2 t2 e1 o1 t1 R I1 C1 I2 C2; cbn [app] in R; inversion R as [|h c0 e' o' c' R0 ST]; subst; [|eapply IH; eauto].
  destruct (later_hurry _ _ _ _ _ _ R0 C1 I1) as (t & n & L & LE).
  assert (M : may_hurry t2 (h1 ++ (e1, o1) :: h0)).
  { destruct (C73_only _ _ _ _ ST I2) as [(now & src & b & ->)|(now & ->)]; inversion C2; subst now.
    - apply (C73_online _ _ _ _ _ _ _ R0 ST) in I2. destruct I2 as [_ IO]. cbn [step] in IO. apply (poke_hurry _ _ _ (ran_hinv _ _ R0)) in IO. exact IO.
    - apply (poke_hurry _ _ t2 (ran_hinv _ _ R0)). cbn [step] in ST. rewrite ST. exact I2. }
  unfold may_hurry in M. rewrite L in M. lia.
Qed.
(** After the clock was set back hurryUp() has no effect until it has caught up: not every call at least
    30 seconds (of time, here of ticks of the search timer) after the last one has an effect. *)
Theorem C73_clock_refuted : ~ forall h c now o c', ran h c -> step c (HurryUp now) = (o, c') -> s 30 <= now ->
  match last_hurry h with Some (_, n) => (1000 <= n)%nat | None => True end -> In Hurry o.
Proof.
  intros A. assert (R : exists h c, ran h c /\ last_hurry h = Some (s 3600, 1000%nat)).
  { assert (R1 : ran [(HurryUp (s 3600), [Hurry])] (Ctx [] [] nBuckets (s 3600))) by (eapply ran_step; [apply ran_new|reflexivity]).
    assert (RN : forall n, exists c, ran (repeat (Tick, []) n ++ [(HurryUp (s 3600), [Hurry])]) c /\ last_hurry (repeat (Tick, []) n ++ [(HurryUp (s 3600), [Hurry])]) = Some (s 3600, n)).
    { induction n as [|n (c & IH & L)]; [eexists; split; [exact R1|reflexivity]|]. cbn [repeat app]. eexists. split; [eapply ran_step; [exact IH|reflexivity]|]. cbn [last_hurry clock]. rewrite L. reflexivity. }
    destruct (RN 1000%nat) as (c & R & L). eauto. }
  destruct R as (h & c & R & L). destruct (step c (HurryUp (s 1800))) as [o c'] eqn:E. specialize (A h c (s 1800) o c' R E). rewrite L in A.
  apply (C73_hurry _ _ _ _ _ R E) in A; [|unfold s; lia|lia]. rewrite L in A. unfold s in A. lia.
Qed.

(** ** Histories with all of this *)
Definition b1 : beacon := {| b_version := 2; b_guid := [1; 2; 3]; b_server := SA_in [10; 0; 0; 1]; b_port := 5075; b_proto := t_tcp |}.
Definition b2 : beacon := {| b_version := 2; b_guid := [4; 5; 6]; b_server := SA_in [10; 0; 0; 1]; b_port := 5075; b_proto := t_tcp |}.
Definition from1 : endpoint := (SA_in [10; 0; 0; 1], 5076).
Definition story : list event :=
  [Start 9; Rx (s 100) from1 b1; Rx (s 115) from1 b1; Rx (s 130) from1 b2; Clean (s 180); Clean (s 490); Clean (s 491); Rx (s 600) from1 b1; Clean (s 500)].
Example C40_ex : exists h c, ran h c /\ map (fun x => told (snd x)) (rev h) =
  (let on g t := Discovered true 2 (Some from1) t_tcp (SA_in [10; 0; 0; 1], 5075) g (s t) in
  let off g t p := Discovered false 2 p t_tcp (SA_in [10; 0; 0; 1], 5075) g (s t) in
  [[]; [on [1; 2; 3] 100]; []; [off [1; 2; 3] 130 (Some from1); on [4; 5; 6] 130]; []; []; [off [4; 5; 6] 491 None]; [on [1; 2; 3] 600]; [off [1; 2; 3] 500 None]]) /\
  last_hurry h = Some (s 100, O) /\ active 9 h.
Proof.
  destruct (run new_ctx story []) as [h c] eqn:E. exists h, c. split; [eapply run_ran; [apply ran_new|exact E]|]. vm_compute in E. injection E as <- <-. split; [vm_compute; reflexivity|]. split; [vm_compute; reflexivity|]. cbn. auto.
Qed.

Print Assumptions C40_alternate.
Print Assumptions C40_beacon.
Print Assumptions C40_timeout.
Print Assumptions C40_timeout_is.
Print Assumptions C40_silent.
Print Assumptions C40_limit.
Print Assumptions C74_told.
Print Assumptions C74_late_refuted.
Print Assumptions C40_server.
Print Assumptions C40_server_bytes.
Print Assumptions C40_steady.
Print Assumptions C73_hurry.
Print Assumptions C73_online.
Print Assumptions C73_only.
Print Assumptions C73_rate.
Print Assumptions C73_clock_refuted.
