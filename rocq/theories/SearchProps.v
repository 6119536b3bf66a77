(** C39: searching never starves a channel.  C71: search messages.  C72: what is found. *)
From Coq Require Import ZArith List Bool Lia ZifyBool ZifyNat.
From Verif Require Import Base BaseProofs WireModel WireSpec WireProofs UdpModel UdpSpec UdpProofs UdpProps SearchModel SearchSpec SearchProofs SearchWire SearchRing SearchReply.
Import ListNotations.
Local Open Scope Z_scope.

(** the channel exists and is not connected nor connecting *)
Definition searching (c : ctx) (id : Z) (name : str) : Prop := exists n, chans c id = Some (Chan name true n).
(** [pss]: the packets sent at each event *)
Definition reached (host : bool) (port : Z) (es : list event) (pss : list (list packet)) (c : ctx) : Prop := run host port new_ctx es = Some (pss, c).
Definition asks (ps : list packet) (id : Z) (name : str) : Prop := exists p, In p ps /\ In (id, name) (p_entries p).
Definition search_ticks (es : list event) : nat := length (filter (fun e => match e with SearchTimer => true | _ => false end) es).

(** ** C39 *)
(** A channel which is searched for is always scheduled: for the first search, whose timer is then running, or in the ring. *)
Theorem C39_scheduled : forall host port es pss c id name, reached host port es pss c -> searching c id name ->
  (In id (initial c) /\ sched c = true) \/ exists i, (i < 30)%nat /\ In id (nth i (buckets c) []).
Proof.
  intros host port es pss c id name R S. destruct (run_inv host port es new_ctx pss c inv_new R) as [L U SC N].
  destruct (N id name S) as [H|(i & LI & H)]; [left|right]. split; auto. apply SC. intros Z. rewrite Z in H. destruct H. rewrite L in LI. exists i. auto.
Qed.
(** From any state, it is asked for within 30 ticks, whatever else happens, unless it is found or destroyed. *)
Theorem C39_bound : forall host port es pss c id name es2 pss2 c2, reached host port es pss c -> searching c id name ->
  run host port c es2 = Some (pss2, c2) -> (forall e, In e es2 -> e <> Found id /\ e <> Gone id) -> (30 <= search_ticks es2)%nat ->
  In InitialTimer es2 \/ ~ In id (initial c) -> asks (concat pss2) id name.
Proof.
  intros host port es pss c id name es2 pss2 c2 R S R2 NE T I. pose proof (run_inv host port es new_ctx pss c inv_new R) as V.
  assert (F : Forall (fun e => ~ ends id e) es2) by (apply Forall_forall; intros e H [X|X]; destruct (NE e H); auto).
  destruct (in_dec Z.eq_dec id (initial c)) as [II|NI].
  - destruct I as [I|I]; [|contradiction]. eapply run_initial; eauto.
  - destruct (I_in c V id name S) as [X|X]; [contradiction|]. destruct (ring_ahead c id V X) as (d & AH). pose proof AH as (LD & _). unfold nBuckets in LD.
    eapply run_ahead; eauto. unfold ticks, search_ticks in *. lia.
Qed.
(** A new channel is asked for when the first timer fires. *)
Theorem C39_first : forall host port es pss c id name ps c2, reached host port es pss c -> searching c id name -> In id (initial c) ->
  step host port c InitialTimer = Some (ps, c2) -> asks ps id name /\ searching c2 id name /\ ~ In id (initial c2).
Proof.
  intros host port es pss c id name ps c2 R S I E. pose proof (run_inv host port es new_ctx pss c inv_new R) as V.
  assert (R1 : run host port c [InitialTimer] = Some ([ps], c2)) by (cbn [run]; rewrite E; reflexivity).
  assert (NE : ~ ends id InitialTimer) by (intros [X|X]; discriminate).
  pose proof (run_initial host port [InitialTimer] c [ps] c2 id name V R1 S ltac:(constructor; auto) I (or_introl eq_refl)) as A. cbn [concat] in A. rewrite app_nil_r in A. split; [exact A|].
  split; [eapply step_live; eauto|]. pose proof V as [L U SC N]. cbn [step] in E. rewrite SC in E by (intros Z; rewrite Z in I; destruct I).
  assert (V1 : inv (Ctx (cur c) (initial c) (buckets c) (chans c) true (npoked c))) by (constructor; auto).
  match type of E with tick_search _ _ _ _ ?x = _ => assert (V2 : tick_search host port Initial false x = Some (ps, c2)) by exact E; clear E end.
  unfold tick_search in V2. cbn [cur initial buckets chans sched npoked] in V2.
  match type of V2 with send_all _ _ _ _ _ _ _ ?x = _ => destruct (send_spec _ _ _ _ _ _ _ _ _ _ (nonempty x L) (le_n _) V2) as [_ _ (_ & IE & _) _ _] end. cbn [initial] in IE. rewrite <- IE. auto.
Qed.
(** Only channels which are being searched for are asked for. *)
Theorem C39_only : forall host port es pss c e ps c2 id name, reached host port es pss c -> step host port c e = Some (ps, c2) -> asks ps id name -> searching c id name.
Proof.
  intros host port es pss c e ps c2 id name R E (p & IP & IE). pose proof (run_inv host port es new_ctx pss c inv_new R) as V. pose proof V as [L U SC N].
  destruct e as [i n| | | | |i|i con|i]; cbn [step] in E; try solve [destruct (chans c i); apply some_pair in E; destruct E as (<- & _); destruct IP]; try solve [apply some_pair in E; destruct E as (<- & _); destruct IP].
  - destruct (sched c); [|apply some_pair in E; destruct E as (<- & _); destruct IP]. unfold tick_search in E.
    match type of E with send_all _ _ _ _ _ _ _ ?x = _ => destruct (send_spec _ _ _ _ _ _ _ _ _ _ (nonempty x L) (le_n _) E) as [_ _ _ O _] end. destruct (O p id name IP IE) as (_ & X). exact X.
  - unfold tick_search in E. match type of E with send_all _ _ _ _ _ _ _ ?x = _ => assert (LX : length (buckets x) = nBuckets) by (cbn [buckets]; rewrite clear_len; exact L); destruct (send_spec _ _ _ _ _ _ _ _ _ _ (nonempty x LX) (le_n _) E) as [_ _ _ O _] end.
    destruct (O p id name IP IE) as (_ & X). exact X.
  - unfold tick_search in E. cbv zeta in E. rewrite ping_eq in E. apply some_pair in E. destruct E as (<- & _). destruct IP as [<-|[]]. destruct IE.
Qed.
(** The process does not end, if no name is longer than 32000 bytes. *)
Theorem C39_no_abort : forall host port es, (forall id name, In (Build id name) es -> zlen name <= 32000) -> exists pss c, reached host port es pss c.
Proof.
  intros host port es H. assert (F : Forall short_build es) by (apply Forall_forall; intros [id name| | | | | | |] X; cbn; auto; eauto).
  pose proof (run_ok host port es new_ctx inv_new ltac:(intros ? ? X; discriminate) F) as R. unfold reached. destruct (run host port new_ctx es) as [(pss, c)|]; [eauto|congruence].
Qed.
(** It does end for a name which does not fit in a message: an assertion fails.  (Likewise for two which fit one by one but not both.) *)
Lemma long_none : forall host port k poked idx id name n c, 65536 < zlen name -> chans c id = Some (Chan name true n) -> send_all 1 host port k poked idx [id] c = None.
Proof.
  intros host port k poked idx id name n c L CI. cbn [send_all fill]. rewrite CI. cbn [ch_searching ch_name]. cbv zeta.
  pose proof (start_good host port false) as G. set (w := wpush [0; 0] (start_msg host port false)) in *.
  destruct (werr (to_wire_str host name (to_wire_u host 4 id w))) eqn:W; [rewrite W; reflexivity|]. exfalso.
  destruct (entry_good host id name w G W) as (D & _ & (_ & _ & _ & B)). rewrite D in B. unfold enc_str in B. rewrite !zlen_app in B.
  pose proof (zlen_nonneg (wd w)). pose proof (zlen_nonneg (enc_u true 4 id)). pose proof (zlen_nonneg (enc_size true (zlen name))). lia.
Qed.
Theorem C39_long_name_refuted : forall host port id name, 65536 < zlen name -> run host port new_ctx [Build id name; InitialTimer] = None.
Proof.
  intros host port id name L. set (c1 := Ctx 0 [id] (repeat [] nBuckets) (fun i => if i =? id then Some (Chan name true 0) else None) true 0).
  assert (E1 : step host port new_ctx (Build id name) = Some ([], c1)) by reflexivity.
  assert (E2 : step host port c1 InitialTimer = None).
  { apply (long_none host port Initial false 0 id name 0 (Ctx 0 [] (repeat [] nBuckets) (fun i => if i =? id then Some (Chan name true 0) else None) false 0) L). cbn [chans]. rewrite Z.eqb_refl. reflexivity. }
  cbn [run]. rewrite E1, E2. reflexivity.
Qed.
(** A channel which connects and is lost again before its slot in the ring comes round is asked for twice in one message. *)
Theorem C39_once_refuted : exists es pss c, reached false 5076 es pss c /\
  exists p, In p (concat pss) /\ p_entries p = [(7, [97]); (7, [97])].
Proof.
  exists [Build 7 [97]; InitialTimer; Found 7; Lost 7 false; SearchTimer].
  let r := eval vm_compute in (match run false 5076 new_ctx [Build 7 [97]; InitialTimer; Found 7; Lost 7 false; SearchTimer] with Some (pss, _) => pss | None => [] end) in exists r.
  exists (match run false 5076 new_ctx [Build 7 [97]; InitialTimer; Found 7; Lost 7 false; SearchTimer] with Some (_, c) => c | None => new_ctx end). split.
  - unfold reached. vm_compute. reflexivity.
  - eexists. split; [right; left; reflexivity|reflexivity].
Qed.
(** While there are at most 100 channels in the ring, each interval between searches for a channel is one tick
    longer than the one before, up to 30. *)
Theorem C39_backoff : forall host port es pss c ps c2 id name n, reached host port es pss c -> npoked c = 0%nat ->
  (length (concat (buckets c)) <= 100)%nat -> NoDup (nth (cur c) (buckets c) []) ->
  In id (nth (cur c) (buckets c) []) -> chans c id = Some (Chan name true n) -> step host port c SearchTimer = Some (ps, c2) ->
  chans c2 id = Some (Chan name true (Nat.min 30 (n + 1))) /\ cur c2 = ((cur c + 1) mod 30)%nat /\
  In id (nth ((cur c + Nat.min 30 (n + 1)) mod 30) (buckets c2) []).
Proof.
  intros host port es pss c ps c2 id name n R NP T ND I CI E. pose proof (run_inv host port es new_ctx pss c inv_new R) as V. pose proof V as [L U SC N].
  cbn [step] in E. rewrite NP in E. change (negb (0 =? 0)%nat) with false in E. unfold tick_search in E. cbn [cur initial buckets chans sched npoked] in E.
  assert (TT : forall b, total b = length (concat b)) by (induction b; cbn; auto; rewrite app_length; lia). rewrite <- TT in T.
  match type of E with send_all _ _ _ _ _ _ _ ?x = _ => set (c1 := x) in *; assert (L1 : length (buckets c1) = nBuckets) by (cbn [c1 buckets]; rewrite clear_len; exact L) end.
  pose proof (clear_total (buckets c) (cur c)) as CT.
  assert (T1 : (total (buckets c1) + length (nth (cur c) (buckets c) []) <= 100)%nat) by (cbn [c1 buckets]; lia).
  destruct (send_moved _ _ _ _ _ _ _ _ _ _ L1 T1 ND (le_n _) E id name n I CI) as (A & B).
  destruct (send_spec _ _ _ _ _ _ _ _ _ _ (nonempty c1 L1) (le_n _) E) as [_ _ (CU & _) _ _]. cbn [c1 cur] in CU. rewrite L in CU. split; [exact A|]. split; [auto|exact B].
Qed.
(** A first search is repeated at the next tick. *)
Theorem C39_first_again : forall host port es pss c ps c2 id name n, reached host port es pss c ->
  (length (concat (buckets c)) + length (initial c) <= 100)%nat -> NoDup (initial c) ->
  In id (initial c) -> chans c id = Some (Chan name true n) -> step host port c InitialTimer = Some (ps, c2) ->
  cur c2 = cur c /\ In id (nth (cur c2) (buckets c2) []).
Proof.
  intros host port es pss c ps c2 id name n R T ND I CI E. pose proof (run_inv host port es new_ctx pss c inv_new R) as V. pose proof V as [L U SC N].
  cbn [step] in E. rewrite SC in E by (intros Z; rewrite Z in I; destruct I). unfold tick_search in E. cbn [cur initial buckets chans sched npoked] in E.
  assert (TT : forall b, total b = length (concat b)) by (induction b; cbn; auto; rewrite app_length; lia). rewrite <- TT in T.
  match type of E with send_all _ _ _ _ _ _ _ ?x = _ => set (c1 := x) in *; assert (L1 : length (buckets c1) = nBuckets) by exact L end.
  destruct (send_moved _ _ _ _ _ _ _ _ _ _ L1 (T : (total (buckets c1) + length (initial c) <= 100)%nat) ND (le_n _) E id name n I CI) as (A & B).
  destruct (send_spec _ _ _ _ _ _ _ _ _ _ (nonempty c1 L1) (le_n _) E) as [_ _ (CU & _) _ _]. cbn [c1 cur] in CU. split; [auto|]. rewrite <- CU.
  cbn [inc] in B. rewrite Nat.add_0_r in B. rewrite Nat.mod_small in B by exact U. exact B.
Qed.
(** The interval is not shortened by connecting: a channel lost after a long search is, after the immediate one, only searched for again after as long. *)
Theorem C39_reset_refuted : forall host port c id name s n con, chans c id = Some (Chan name s n) ->
  exists c2, run host port c [Found id; Lost id con] = Some ([[]; []], c2) /\ chans c2 id = Some (Chan name true n).
Proof.
  intros host port c id name s n con CI. cbn [run step]. rewrite CI. cbn [chans set_chan]. rewrite Z.eqb_refl. eexists. split; [reflexivity|]. cbn. rewrite Z.eqb_refl. reflexivity.
Qed.

(** ** C71 *)
(** Every message sent is a search for its channels, or a ping without any.  It is at most 1400 bytes, unless for a
    single channel, when it is at most 65536. *)
Theorem C71_search : forall host port es pss c p, 0 <= port < 65536 -> (forall id name, In (Build id name) es -> 0 <= id < 2 ^ 32 /\ is_bytes name) ->
  reached host port es pss c -> In p (concat pss) ->
  (is_search 0 port [tcp] (p_entries p) (p_bytes p) /\ p_entries p <> [] /\
   is_search 128 port [tcp] (p_entries p) (for_unicast (p_bytes p)) /\ is_search 128 0 [tcp] (p_entries p) (for_tcp (p_bytes p)) /\
   zlen (p_bytes p) <= 65536 /\ (zlen (p_bytes p) <= 1400 \/ length (p_entries p) = 1%nat)) \/
  (p_entries p = [] /\ is_search 1 port [] [] (p_bytes p) /\ is_search 129 port [] [] (for_unicast (p_bytes p))).
Proof.
  intros host port es pss c p HP HB R IP. assert (F : Forall good_build es) by (apply Forall_forall; intros [id name| | | | | | |] X; cbn; auto).
  destruct (run_packets host port es new_ctx pss c inv_new ltac:(intros ? ? X; discriminate) F R) as (A & _). rewrite Forall_forall in A. destruct (A p IP) as [(OK & FE)| -> ].
  - left. pose proof OK as [B S SZ MX N]. assert (HP' : 0 <= port < 2 ^ 16) by exact HP.
    split; [rewrite B; eapply packet_search; eauto|]. split; [auto|]. split; [rewrite B, unicast_eq; change (Z.lor 0 128) with 128; eapply packet_search; eauto|].
    split; [rewrite B, tcp_eq; change (Z.lor 0 128) with 128; eapply packet_search; eauto; lia|]. split; auto.
  - right. split; [reflexivity|]. cbn [ping p_bytes]. rewrite unicast_eq. change (Z.lor 1 128) with 129. change [0] with ([zlen (@nil str)] ++ []).
    assert (ZL : forall fl, zlen (search_bytes fl port ([zlen (@nil str)] ++ []) []) <= 65536) by (intros; rewrite search_bytes_len, !zlen_app; unfold zlen; rewrite head_len; cbn; lia).
    split; apply search_is; auto; try reflexivity; constructor.
Qed.

(** ** C72 *)
(** The reply to a search names exactly the channels which some source claims, in the format of the protocol; there
    is none if there are no such channels, unless a reply is demanded. *)
Theorem C72_reply : forall host guid port sources s, Forall answers sources -> length guid = 12%nat -> 0 <= port < 65536 ->
  0 <= s_id s < 2 ^ 32 -> Forall (fun x => 0 <= snd x < 2 ^ 32) (s_names s) -> zlen (s_names s) < 65536 ->
  (server_search host false guid port sources s = None /\ s_mustreply s = false /\ forall id, ~ claimed sources (s_names s) id) \/
  (exists d ids body, server_search host false guid port sources s = Some d /\ (forall id, In id ids <-> claimed sources (s_names s) id) /\
     message_len 2 true 4 (zlen body) body d /\
     response_body true guid (s_id s) (SA_in [0; 0; 0; 0]) port tcp (match ids with [] => 0 | _ => 1 end) ids body).
Proof.
  intros host guid port sources s FA LG RP RI F N. pose proof (server_reply host guid port sources s LG RI RP F N) as X. cbv zeta in X.
  set (ids := claimed_ids _ _) in X. assert (CL : forall id, In id ids <-> claimed sources (s_names s) id) by (intros; apply claims_spec; auto).
  destruct (is_nil ids && negb (s_mustreply s)) eqn:E.
  - left. apply andb_true_iff in E. destruct E as (E1 & E2). split; auto. split; [destruct (s_mustreply s); auto; discriminate|]. intros id C. apply CL in C. destruct ids; [destruct C|discriminate].
  - right. destruct X as (d & body & A & B & C). exists d, ids, body. split; auto. split; auto. split; [exact B|]. destruct ids; exact C.
Qed.
(** A server whose clients are ignored is silent. *)
Theorem C72_ignored : forall host guid port sources s, server_search host true guid port sources s = None.
Proof. reflexivity. Qed.
(** A reply in the format, of either byte order, is read exactly: unless the server is to be ignored. *)
Theorem C72_read : forall host discovering ignore src sport version be guid id a port proto found ids len body d,
  is_bytes d -> is_unspec src = false -> message_len version be 4 len body d -> response_body be guid id a port proto found ids body -> 
  client_reply host discovering ignore src sport d =
    if in_dec (list_eq_dec Z.eq_dec) guid ignore then RDone None true
    else RDone (Some {| r_beacon := if (id =? find_seq) && (zlen ids =? 0) && (found =? 0) && discovering
                                    then Some {| b_version := version; b_guid := guid; b_server := if is_any a then src else a; b_port := port; b_proto := proto |} else None;
                        r_guid := guid; r_server := if is_any a then src else a; r_port := port;
                        r_ids := if (found =? 0) || negb (str_eqb proto tcp) then [] else ids |}) true.
Proof.
  intros host discovering ignore src sport version be guid id a port proto found ids len body d B US M RB. destruct (header_dec host (Header 0 0 0 0) _ _ _ _ _ _ B M) as (fl & E & NF & LL).
  unfold client_reply. rewrite E. change (rgood (inbuf body be)) with true. cbn [negb orb h_flags h_len h_cmd h_version]. rewrite NF. change (rd (inbuf body be)) with body. replace (zlen body <? len) with false by lia.
  change (4 =? cmd_search_response) with true. cbv iota.
  assert (FR : 0 <= found < 256).
  { destruct M as (f0 & e4 & -> & _). apply is_bytes_app in B. destruct B as (_ & B). apply is_bytes_app in B. destruct B as (_ & B). destruct RB as (e1 & e2 & e3 & e5 & e6 & e7 & more & -> & _).
    do 5 (apply is_bytes_app in B; destruct B as (_ & B)). apply is_bytes_app in B. destruct B as (B & _). inversion B; auto. }
  rewrite (reply_dec host false discovering ignore src sport version be guid id a port proto found ids body US FR RB). cbv zeta. cbn [andb negb].
  destruct (in_dec (list_eq_dec Z.eq_dec) guid ignore) as [I|I].
  - replace (existsb (str_eqb guid) ignore) with true; auto. symmetry. apply existsb_exists. exists guid. split; auto. apply str_eqb_refl.
  - replace (existsb (str_eqb guid) ignore) with false; [reflexivity|]. symmetry. apply not_true_iff_false. rewrite existsb_exists. intros (x & X & EQ). apply str_eqb_eq in EQ. subst x. contradiction.
Qed.
(** The channels which connect because of a reply are those it names which exist and are still searched for. *)
Theorem C72_connect : forall c ids id, NoDup ids -> (In id (found_events c ids) <-> In id ids /\ exists name, searching c id name).
Proof. intros c ids id ND. rewrite found_spec by auto. unfold searching. reflexivity. Qed.

(** From end to end: a search as sent by this client, delivered to a server by broadcast or multicast, is answered if and only if a source claims one of
    its names; and the client, on receipt of the answer from [srv], has exactly those channels at the TCP port of the server. *)
Theorem C72_round_trip : forall host port es pss c p, 0 <= port < 65536 -> (forall id name, In (Build id name) es -> 0 <= id < 2 ^ 32 /\ is_bytes name /\ ~ In 0 name) ->
  reached host port es pss c -> In p (concat pss) -> p_entries p <> [] ->
  forall hosts g src dest local junk, received src dest (p_bytes p) junk ->
  exists s, snd (handle_one hosts g src dest local (p_bytes p) junk) = Search_ s /\ s_server s = src /\ s_port s = port /\ s_mustreply s = false /\
    s_names s = map (fun x => (snd x, fst x)) (p_entries p) /\
  forall guid tport sources srv sport discovering, Forall answers sources -> length guid = 12%nat -> is_bytes guid -> 0 <= tport < 65536 -> is_unspec srv = false ->
    let names := map (fun x => (snd x, fst x)) (p_entries p) in
    match server_search hosts false guid tport sources s with
    | None => forall id, ~ claimed sources names id
    | Some d => (exists id, claimed sources names id) /\ exists ids, (forall id, In id ids <-> claimed sources names id) /\
        client_reply host discovering [] srv sport d = RDone (Some {| r_beacon := None; r_guid := guid; r_server := srv; r_port := tport; r_ids := ids |}) true
    end.
Proof.
  intros host port es pss c p HP HB R IP NE hosts g src dest local junk RC.
  assert (F : Forall good_build es) by (apply Forall_forall; intros [id name| | | | | | |] X; cbn; auto; destruct (HB _ _ X) as (A1 & A2 & _); auto).
  destruct (run_packets host port es new_ctx pss c inv_new ltac:(intros ? ? X; discriminate) F R) as (A & _). rewrite Forall_forall in A. destruct (A p IP) as [(OK & FE)| -> ]; [|elim NE; reflexivity].
  pose proof (plain_names host port es pss c p (fun id name X => proj2 (proj2 (HB id name X))) R IP) as NZ.
  pose proof OK as [B S SZ MX N]. assert (IS : is_search 0 port [tcp] (p_entries p) (p_bytes p)) by (rewrite B; eapply packet_search; eauto; exact HP). destruct IS as (body & M & SB).
  set (f := {| f_id := find_seq; f_flags := 0; f_addr := no_addr; f_port := port; f_protos := [tcp]; f_names := map (fun x => (snd x, fst x)) (p_entries p) |}) in SB.
  exists (search_of (c_tcp g) src 2 f). split.
  { apply (C41_search hosts g src dest local (p_bytes p) junk _ RC). exists 2, f. split; auto. left. exists true, body. split; [exists (zlen body); exact M|]. split; auto. }
  assert (NM : s_names (search_of (c_tcp g) src 2 f) = map (fun x => (snd x, fst x)) (p_entries p)).
  { unfold search_of. cbn [s_names f f_protos f_names existsb]. change (str_eqb tcp t_tcp) with true. rewrite orb_true_r. rewrite map_map. apply map_ext_in. intros x X. cbn [fst snd]. rewrite Forall_forall in NZ. rewrite NZ by auto. reflexivity. }
  do 3 (split; [reflexivity|]). split; [exact NM|]. intros guid tport sources srv sport discovering FA LG BG RP US. cbv zeta.
  set (s := search_of (c_tcp g) src 2 f) in *. set (names := map (fun x => (snd x, fst x)) (p_entries p)) in *.
  assert (FN : Forall (fun x => 0 <= snd x < 2 ^ 32) (s_names s)).
  { rewrite NM. apply Forall_forall. intros x X. apply in_map_iff in X. destruct X as (y & <- & Y). cbn [snd]. rewrite Forall_forall in FE. apply (FE y Y). }
  assert (ZN : zlen (s_names s) < 65536).
  { rewrite NM. destruct SB as (e1 & e2 & e3 & e4 & e5 & e6 & e7 & e8 & more & _ & _ & _ & _ & _ & _ & _ & RN & _). cbn [f f_names] in RN. fold names in RN. apply rep_range in RN. exact (proj2 RN). }
  destruct (C72_reply hosts guid tport sources s FA LG RP ltac:(split; [discriminate|reflexivity]) FN ZN) as [(E & _ & NC)|(d & ids & body' & E & CL & M' & RB')]; rewrite E.
  - rewrite <- NM. exact NC.
  - rewrite NM in CL.
    assert (NN : ids <> []).
    { intros ->. unfold server_search in E. cbv zeta in E. destruct (is_nil (claimed_ids (s_names s) (ask sources (map fst (s_names s)) (map (fun _ => false) (map fst (s_names s)))))) eqn:Z.
      - cbn [s s_mustreply search_of f f_flags negb andb] in E. discriminate E.
      - destruct (claimed_ids (s_names s) (ask sources (map fst (s_names s)) (map (fun _ => false) (map fst (s_names s))))) as [|i l] eqn:CI; [discriminate|].
        assert (X : In i (claimed_ids (s_names s) (ask sources (map fst (s_names s)) (map (fun _ => false) (map fst (s_names s)))))) by (rewrite CI; left; auto).
        apply claims_spec in X; auto. rewrite NM in X. apply CL in X. destruct X. }
    pose proof (server_bytes _ _ _ _ _ _ BG E) as BD.
    split. { destruct ids as [|i l]; [congruence|]. exists i. apply CL. left. auto. }
    exists ids. split; auto. rewrite (C72_read host discovering [] srv sport 2 true guid _ _ tport tcp _ ids _ body' d BD US M' RB').
    destruct (in_dec _ guid []) as [[]|_]. destruct ids as [|i l]; [congruence|]. change (1 =? 0) with false. rewrite andb_false_r. change (str_eqb tcp tcp) with true. cbn [orb negb andb is_any any4]. reflexivity.
Qed.

(** Sent to one address of a host, a search is passed on to the local multicast group, and so reaches every server there, as though it had been received directly. *)
Theorem C72_unicast : forall host port es pss c p, 0 <= port < 65536 -> (forall id name, In (Build id name) es -> 0 <= id < 2 ^ 32 /\ is_bytes name /\ ~ In 0 name) ->
  reached host port es pss c -> In p (concat pss) -> p_entries p <> [] ->
  forall hosts g src e_src q local junk, received src (SA_in q) (for_unicast (p_bytes p)) junk -> fmt_addr src e_src -> is_bytes e_src -> is_any src = false -> is_bytes q -> is_lo_mcast (SA_in q) = false ->
  exists l, snd (handle_one hosts g src (SA_in q) local (for_unicast (p_bytes p)) junk) = Forward l /\
  forall host' g' src' e_src' dest' junk', fmt_addr src' e_src' -> is_mcast src' = false -> is_lo_mcast dest' = true -> junk' <> [] ->
  exists s, snd (handle_one host' g' src' dest' true l junk') = Search_ s /\ s_server s = src /\ s_port s = port /\ s_mustreply s = false /\ s_names s = map (fun x => (snd x, fst x)) (p_entries p).
Proof.
  intros host port es pss c p HP HB R IP NE hosts g src e_src q local junk RC FS BS NA BQ LO.
  destruct (C71_search host port es pss c p HP (fun id name X => match HB id name X with conj a (conj b _) => conj a b end) R IP) as [(_ & _ & (body & M & SB) & _)|(X & _)]; [|contradiction].
  pose proof (plain_names host port es pss c p (fun id name X => proj2 (proj2 (HB id name X))) R IP) as NZ.
  assert (MM : message 2 true cmd_search body (for_unicast (p_bytes p))) by (exists (zlen body); exact M).
  assert (LQ : length q = 4%nat) by (destruct RC as (_ & _ & _ & _ & _ & X); exact X).
  assert (BD : is_bytes (v4_prefix ++ q)) by (apply is_bytes_app; split; [apply all_bytes; reflexivity|auto]).
  destruct (C41_forward hosts g src e_src (SA_in q) (v4_prefix ++ q) local _ junk 2 true body _ RC FS BS NA (addr_v4 q LQ) BD MM SB) as (l & E & _ & H).
  { unfold forwarded. cbn [f_flags is_in]. rewrite LO. reflexivity. }
  exists l. split; auto. intros host' g' src' e_src' dest' junk' FS' NM' LO' J'. rewrite (H host' g' src' e_src' dest' junk' FS' NM' LO' J'). eexists. split; [reflexivity|]. do 3 (split; [reflexivity|]).
  unfold search_of. cbn [s_names f_protos f_names existsb]. change (str_eqb tcp t_tcp) with true. rewrite orb_true_r. rewrite map_map. apply map_ext_in. intros x X. cbn [fst snd]. rewrite Forall_forall in NZ. rewrite NZ by auto. reflexivity.
Qed.
(** A discovery ping is answered by every server which does not ignore the client, and the answer is what a beacon of that server would be. *)
Theorem C72_ping : forall host port c, 0 <= port < 65536 -> exists p, step host port c Ping = Some ([p], c) /\
  forall hosts g src dest local junk, received src dest (p_bytes p) junk ->
  exists s, snd (handle_one hosts g src dest local (p_bytes p) junk) = Search_ s /\ s_server s = src /\ s_port s = port /\
  forall guid tport sources srv sport, Forall answers sources -> length guid = 12%nat -> is_bytes guid -> 0 <= tport < 65536 -> is_unspec srv = false ->
    exists d, server_search hosts false guid tport sources s = Some d /\
      client_reply host true [] srv sport d = RDone (Some {| r_beacon := Some {| b_version := 2; b_guid := guid; b_server := srv; b_port := tport; b_proto := tcp |};
                                                              r_guid := guid; r_server := srv; r_port := tport; r_ids := [] |}) true.
Proof.
  intros host port c HP. exists (ping port). split; [cbn [step tick_search]; cbv zeta; rewrite ping_eq; reflexivity|]. intros hosts g src dest local junk RC.
  assert (IS : is_search 1 port [] [] (p_bytes (ping port))).
  { cbn [ping p_bytes]. change [0] with ([zlen (@nil str)] ++ []). apply search_is; auto; try reflexivity; try constructor. rewrite search_bytes_len, !zlen_app. unfold zlen. rewrite head_len. cbn. lia. }
  destruct IS as (body & M & SB). set (f := {| f_id := find_seq; f_flags := 1; f_addr := no_addr; f_port := port; f_protos := []; f_names := map (fun x => (snd x, fst x)) [] |}) in SB.
  exists (search_of (c_tcp g) src 2 f). split.
  { apply (C41_search hosts g src dest local _ junk _ RC). exists 2, f. split; auto. left. exists true, body. split; [exists (zlen body); exact M|]. split; auto. }
  do 2 (split; [reflexivity|]). intros guid tport sources srv sport FA LG BG RP US.
  assert (NM : s_names (search_of (c_tcp g) src 2 f) = []) by (unfold search_of; cbn [s_names f f_protos f_names map]; destruct (_ || _); reflexivity).
  set (s := search_of (c_tcp g) src 2 f) in *.
  destruct (C72_reply hosts guid tport sources s FA LG RP ltac:(split; [discriminate|reflexivity]) ltac:(rewrite NM; constructor) ltac:(rewrite NM; reflexivity)) as [(_ & E & _)|(d & ids & body' & E & CL & M' & RB')]; [discriminate E|].
  exists d. split; auto. pose proof (server_bytes _ _ _ _ _ _ BG E) as BD.
  assert (ids = []) by (destruct ids as [|i l]; auto; exfalso; destruct (proj1 (CL i) (or_introl eq_refl)) as (j & name & x & N & _); rewrite NM in N; destruct j; discriminate). subst ids.
  rewrite (C72_read host true [] srv sport 2 true guid _ _ tport tcp _ [] _ body' d BD US M' RB'). destruct (in_dec _ guid []) as [[]|_]. reflexivity.
Qed.
(** Through a connection to a name server the same holds. *)
Theorem C72_tcp : forall host port es pss c p, 0 <= port < 65536 -> (forall id name, In (Build id name) es -> 0 <= id < 2 ^ 32 /\ is_bytes name /\ ~ In 0 name) ->
  reached host port es pss c -> In p (concat pss) -> p_entries p <> [] ->
  exists body, message_len 2 true 3 (zlen body) body (for_tcp (p_bytes p)) /\
  forall hosts be guid tport sources, Forall answers sources -> length guid = 12%nat -> 0 < tport < 65536 ->
    let names := map (fun x => (snd x, fst x)) (p_entries p) in
    exists r, tcp_search hosts be guid tport sources (inbuf body true) = Some r /\
    match r with
    | None => forall id, ~ claimed sources names id
    | Some d => exists ids, (forall id, In id ids <-> claimed sources names id) /\ ids <> [] /\
        forall srv sport version discovering, is_unspec srv = false ->
        proc_reply host true discovering [] srv sport version (inbuf d be) = RDone (Some {| r_beacon := None; r_guid := guid; r_server := srv; r_port := tport; r_ids := ids |}) true
    end.
Proof.
  intros host port es pss c p HP HB R IP NE.
  assert (F : Forall good_build es) by (apply Forall_forall; intros [id name| | | | | | |] X; cbn; auto; destruct (HB _ _ X) as (A1 & A2 & _); auto).
  destruct (run_packets host port es new_ctx pss c inv_new ltac:(intros ? ? X; discriminate) F R) as (A & _). rewrite Forall_forall in A. destruct (A p IP) as [(OK & FE)| -> ]; [|elim NE; reflexivity].
  pose proof (plain_names host port es pss c p (fun id name X => proj2 (proj2 (HB id name X))) R IP) as NZ.
  pose proof OK as [B S SZ MX N]. rewrite B, tcp_eq. change (Z.lor 0 128) with 128.
  assert (IS : is_search 128 0 [tcp] (p_entries p) (search_bytes 128 0 tcp_bytes (p_entries p))) by (eapply packet_search; eauto; lia).
  assert (BB : is_bytes (search_bytes 128 0 tcp_bytes (p_entries p))).
  { unfold search_bytes, header_bytes, head_bytes. repeat match goal with |- is_bytes (_ ++ _) => apply is_bytes_app; split end; auto using enc_bytes; try (apply all_bytes; reflexivity).
    clear - FE. induction FE as [|[id name] l (_ & BN) _ IH]; cbn [names_bytes]; [constructor|]. unfold enc_str, enc_size. repeat match goal with |- is_bytes (_ ++ _) => apply is_bytes_app; split end; auto using enc_bytes.
    destruct (zlen name <? 254) eqn:E; [|constructor; [unfold is_byte; lia|apply enc_bytes]]. pose proof (zlen_nonneg name). constructor; [unfold is_byte; lia|constructor]. }
  destruct IS as (body & M & SB). exists body. split; [exact M|]. intros hosts be guid tport sources FA LG RP. cbv zeta.
  assert (BY : is_bytes body) by (destruct M as (fl & e4 & EQ & _); rewrite EQ in BB; apply is_bytes_app in BB; destruct BB as (_ & BB); apply is_bytes_app in BB; apply BB).
  pose proof (tcp_dec hosts true be guid tport sources _ body BY SB ltac:(cbn; tauto)) as T. cbn [f_names f_flags f_id] in T. cbv zeta in T.
  assert (NM : map (fun x : str * Z => (c_str (fst x), snd x)) (map (fun x : Z * str => (snd x, fst x)) (p_entries p)) = map (fun x => (snd x, fst x)) (p_entries p)).
  { rewrite map_map. apply map_ext_in. intros x X. cbn [fst snd]. rewrite Forall_forall in NZ. rewrite NZ by auto. reflexivity. }
  rewrite NM in T. set (names := map (fun x => (snd x, fst x)) (p_entries p)) in *. set (ids := claimed_ids names _) in T. change (Z.testbit 128 0) with false in T. cbn [negb] in T. rewrite andb_true_r in T.
  assert (CL : forall id, In id ids <-> claimed sources names id) by (intros; apply claims_spec; auto).
  rewrite T. eexists. split; [reflexivity|]. destruct ids as [|i0 l0] eqn:EI; cbn [is_nil].
  - intros id C. apply CL in C. destruct C.
  - rewrite <- EI. exists ids. split; [rewrite EI; exact CL|]. split; [rewrite EI; discriminate|]. intros srv sport version discovering US.
    destruct (claimed_ids_sub names (ask sources (map fst names) (map (fun _ => false) (map fst names)))) as (A1 & A2). fold ids in A1, A2.
    assert (FN : Forall (fun x => 0 <= snd x < 2 ^ 32) names) by (apply Forall_forall; intros x X; apply in_map_iff in X; destruct X as (y & <- & Y); cbn [snd]; rewrite Forall_forall in FE; apply (FE y Y)).
    assert (FI : Forall (fun id => 0 <= id < 2 ^ 32) ids). { apply Forall_forall. intros id X. apply A2 in X. apply in_map_iff in X. destruct X as (x & <- & X). rewrite Forall_forall in FN. auto. }
    assert (NI : zlen ids < 65536). { destruct SB as (e1 & e2 & e3 & e4 & e5 & e6 & e7 & e8 & more & _ & _ & _ & _ & _ & _ & _ & RN & _). cbn [f_names] in RN. fold names in RN. apply rep_range in RN. change (2 ^ (8 * Z.of_nat 2)) with 65536 in RN. unfold zlen in *. lia. }
    pose proof (reply_is be guid find_seq tport ids LG ltac:(split; [discriminate|reflexivity]) ltac:(change (2 ^ 16) with 65536; lia) FI NI) as RI. replace (is_nil ids) with false in RI by (rewrite EI; reflexivity).
    rewrite (reply_dec host true discovering [] srv sport version be guid find_seq any4 tport tcp 1 ids _ US ltac:(lia) RI). cbn [existsb]. cbv zeta. cbn [negb andb]. replace (tport =? 0) with false by lia. reflexivity.
Qed.
(** A search through a connection which offers another protocol after "tcp" is misread: here, of the one name searched for, none is seen, and the connection is closed. *)
Definition all_claimed : list str -> list bool := map (fun _ => true).
Theorem C72_protocol_order_refuted : exists f body, search_body true f body /\ f_protos f = [tcp; [116; 108; 115]] /\ f_names f = [([97], 7)] /\
  tcp_search false true (repeat 1 12) 5075 [all_claimed] (inbuf body true) = None.
Proof.
  exists {| f_id := 1; f_flags := 0; f_addr := no_addr; f_port := 5076; f_protos := [tcp; [116; 108; 115]]; f_names := [([97], 7)] |}.
  exists ([0; 0; 0; 1] ++ [0] ++ [0; 0; 0] ++ repeat 0 16 ++ [19; 212] ++ [2] ++ ([3; 116; 99; 112] ++ [3; 116; 108; 115] ++ []) ++ [0; 1] ++ ([0; 0; 0; 7] ++ [1] ++ [97] ++ []) ++ []). split.
  - exists [0; 0; 0; 1], [0; 0; 0], (repeat 0 16), [19; 212], [2], ([3; 116; 99; 112] ++ [3; 116; 108; 115] ++ []), [0; 1], ([0; 0; 0; 7] ++ [1] ++ [97] ++ []), []. cbn [f_id f_flags f_addr f_port f_protos f_names].
    split; [reflexivity|]. split; [exact (rep_enc true 4 1 ltac:(split; [discriminate|reflexivity]))|]. split; [reflexivity|]. split; [constructor; [reflexivity|discriminate]|].
    split; [exact (rep_enc true 2 5076 ltac:(split; [discriminate|reflexivity]))|]. split; [apply size_short; split; [discriminate|reflexivity]|].
    split; [constructor; [change [3; 116; 99; 112] with ([zlen tcp] ++ tcp); constructor; apply size_short; split; [discriminate|reflexivity]|constructor; [|constructor]; change [3; 116; 108; 115] with ([zlen [116; 108; 115]] ++ [116; 108; 115]); constructor; apply size_short; split; [discriminate|reflexivity]]|].
    split; [exact (rep_enc true 2 1 ltac:(split; [discriminate|reflexivity]))|]. constructor; [exact (rep_enc true 4 7 ltac:(split; [discriminate|reflexivity]))|apply size_short; split; [discriminate|reflexivity]|constructor].
  - split; [reflexivity|]. split; [reflexivity|]. vm_compute. reflexivity.
Qed.
(** A reply cut short before the address makes the client throw a logic error, as though by a mistake of the program. *)
Theorem C72_short_refuted : forall host discovering ignore src sport body, zlen body < 28 ->
  client_reply host discovering ignore src sport ([202; 2; 128; 4; 0; 0; 0; 0] ++ body) = RThrow.
Proof.
  intros host discovering ignore src sport body L. unfold client_reply.
  assert (H : from_wire_header host (Header 0 0 0 0) (RB ([202; 2; 128; 4; 0; 0; 0; 0] ++ body) true false) = (Header 4 128 2 0, inbuf body true)).
  { unfold from_wire_header. assert (E8 : rensure 8 (RB ([202; 2; 128; 4; 0; 0; 0; 0] ++ body) true false) = true) by (unfold rensure; cbn [rerr rd negb andb]; rewrite zlen_app; change (zlen [202; 2; 128; 4; 0; 0; 0; 0]) with 8; pose proof (zlen_nonneg body); lia).
    rewrite E8. cbn [app rd nth]. change (202 =? 202) with true. change (2 =? 0) with false. cbn [negb orb]. change (negb (Z.land 128 flag_MSB =? 0)) with true. cbn [rerr].
    change (202 :: 2 :: 128 :: 4 :: 0 :: 0 :: 0 :: 0 :: body) with ([202; 2; 128; 4] ++ [0; 0; 0; 0] ++ body). change (RB ?l true false) with (inbuf l true). rewrite skip_dec by reflexivity. cbn [h_len].
    rewrite (u_dec host 4 0 true 0 [0; 0; 0; 0] body (rep_enc true 4 0 ltac:(split; [discriminate|reflexivity]))). reflexivity. }
  rewrite H. cbn [h_flags h_len h_cmd h_version]. change (rgood (inbuf body true)) with true. change (negb (Z.land 128 (Z.lor flag_Control flag_SegMask) =? 0)) with false. cbn [negb orb]. change (rd (inbuf body true)) with body.
  pose proof (zlen_nonneg body). replace (zlen body <? 0) with false by lia. change (4 =? cmd_search_response) with true. cbv iota. unfold proc_reply.
  destruct (from_wire_mem 12 false (inbuf body true)) as [g0 b1] eqn:E1.
  destruct (from_wire_u host 4 0 b1) as [seq b2] eqn:E2. destruct (from_wire_addr SA_unspec b2) as [a b3] eqn:E3.
  assert (A : a = SA_unspec).
  { assert (X : rerr b2 = true \/ exists l be, b2 = inbuf l be /\ (length l < 16)%nat).
    { unfold from_wire_mem in E1. destruct (negb (rensure (Z.of_nat 12) (inbuf body true))) eqn:E12.
      - assert (R1 : rerr b1 = true) by (inversion E1; reflexivity). rewrite u_err in E2 by auto. inversion E2; subst. auto.
      - assert (B1 : b1 = inbuf (skipn 12 body) true) by (inversion E1; reflexivity). subst b1.
        assert (L12 : (12 <= length body)%nat) by (apply negb_false_iff in E12; unfold rensure in E12; cbn [inbuf rerr rd negb andb] in E12; unfold zlen in E12; lia).
        unfold from_wire_u, from_wire_mem in E2. destruct (negb (rensure (Z.of_nat 4) (inbuf (skipn 12 body) true))) eqn:E4; [left; inversion E2; reflexivity|right].
        assert (B2 : b2 = inbuf (skipn 4 (skipn 12 body)) true) by (inversion E2; reflexivity). exists (skipn 4 (skipn 12 body)), true. split; auto. rewrite !skipn_length. unfold zlen in L.
        apply negb_false_iff in E4; unfold rensure in E4; cbn [inbuf rerr rd negb andb] in E4; unfold zlen in E4; rewrite skipn_length in E4. lia. }
    destruct X as [X|(l & be & -> & LL)]; [rewrite addr_err in E3 by auto; congruence|]. destruct (addr_inv SA_unspec be l) as [(a0 & e & l' & -> & FA & _)|(_ & E)]; [|congruence]. rewrite app_length, (fmt_addr_len _ _ FA) in LL. lia. }
  subst a. cbn [is_any]. destruct (from_wire_u host 2 0 b3) as [port0 b4]. reflexivity.
Qed.

(** ** The theorems apply *)
Definition ex_es : list event := [Build 7 [97; 98]; Build 8 [99]; InitialTimer; Poke; Gone 8].
Definition ex_packet : packet := Packet [(7, [97; 98]); (8, [99])]
  ([202; 2; 128; 3; 0; 0; 0; 46] ++ [102; 105; 110; 100; 0; 0; 0; 0] ++ repeat 0 16 ++ [19; 212; 1; 3; 116; 99; 112; 0; 2; 0; 0; 0; 7; 2; 97; 98; 0; 0; 0; 8; 1; 99]).
Definition ex_end (es : list event) : ctx := match run false 5076 new_ctx es with Some (_, c) => c | None => new_ctx end.
Example C39_ex : reached false 5076 ex_es [[]; []; [ex_packet]; []; []] (ex_end ex_es) /\ searching (ex_end ex_es) 7 [97; 98] /\ ~ searching (ex_end ex_es) 8 [99] /\ ~ In 7 (initial (ex_end ex_es)).
Proof.
  split; [unfold reached; vm_compute; reflexivity|]. split; [exists 0%nat; vm_compute; reflexivity|]. split; [intros (n & X); vm_compute in X; discriminate|]. vm_compute. tauto.
Qed.
(** 30 ticks, with another channel coming and going *)
Definition ex_more : list event := repeat SearchTimer 17 ++ [Build 9 [100]; Ping; Found 9; Lost 9 true] ++ repeat SearchTimer 13.
Example C39_bound_ex : exists pss2 c2, run false 5076 (ex_end ex_es) ex_more = Some (pss2, c2) /\ (30 <= search_ticks ex_more)%nat /\ (forall e, In e ex_more -> e <> Found 7 /\ e <> Gone 7) /\ asks (concat pss2) 7 [97; 98].
Proof.
  destruct C39_ex as (R & S & _ & NI).
  exists (match run false 5076 (ex_end ex_es) ex_more with Some (pss, _) => pss | None => [] end), (match run false 5076 (ex_end ex_es) ex_more with Some (_, c) => c | None => new_ctx end).
  assert (E : run false 5076 (ex_end ex_es) ex_more = Some (match run false 5076 (ex_end ex_es) ex_more with Some (pss, _) => pss | None => [] end, match run false 5076 (ex_end ex_es) ex_more with Some (_, c) => c | None => new_ctx end)) by (vm_compute; reflexivity).
  assert (T : (30 <= search_ticks ex_more)%nat) by (vm_compute; lia).
  assert (N : forall e, In e ex_more -> e <> Found 7 /\ e <> Gone 7).
  { apply Forall_forall. unfold ex_more. rewrite !Forall_app. repeat split; repeat constructor; discriminate. }
  split; [exact E|]. split; [exact T|]. split; [exact N|]. eapply C39_bound; eauto.
Qed.
Definition ex_es1 : list event := [Build 7 [97; 98]; InitialTimer].
Example C39_backoff_ex : reached false 5076 ex_es1 [[]; [Packet [(7, [97; 98])]
  ([202; 2; 128; 3; 0; 0; 0; 40] ++ [102; 105; 110; 100; 0; 0; 0; 0] ++ repeat 0 16 ++ [19; 212; 1; 3; 116; 99; 112; 0; 1; 0; 0; 0; 7; 2; 97; 98])]] (ex_end ex_es1) /\
  npoked (ex_end ex_es1) = 0%nat /\ (length (concat (buckets (ex_end ex_es1))) <= 100)%nat /\ nth (cur (ex_end ex_es1)) (buckets (ex_end ex_es1)) [] = [7] /\ chans (ex_end ex_es1) 7 = Some (Chan [97; 98] true 0) /\
  step false 5076 (ex_end ex_es1) SearchTimer <> None.
Proof.
  split; [unfold reached; vm_compute; reflexivity|]. split; [reflexivity|]. split; [vm_compute; lia|]. split; [reflexivity|]. split; [reflexivity|]. vm_compute. discriminate.
Qed.
(** a source which has the first name *)
Definition ex_source : list str -> list bool := map (fun n => str_eqb n [97; 98]).
Lemma ex_answers : answers ex_source.
Proof. intros names. apply map_length. Qed.
Definition ex_from : sockaddr := SA_in [10; 0; 0; 1].
Example C72_ex : received ex_from (SA_in [10; 0; 0; 255]) (p_bytes ex_packet) [0] /\ In ex_packet (concat [[]; []; [ex_packet]; []; []]) /\ p_entries ex_packet <> [] /\
  claimed [ex_source] (map (fun x => (snd x, fst x)) (p_entries ex_packet)) 7 /\ ~ claimed [ex_source] (map (fun x => (snd x, fst x)) (p_entries ex_packet)) 8.
Proof.
  split.
  { split; [apply all_bytes; reflexivity|]. split; [vm_compute; discriminate|]. split; [discriminate|]. split; [exists (v4_prefix ++ [10; 0; 0; 1]); constructor; reflexivity|]. split; reflexivity. }
  split; [left; reflexivity|]. split; [discriminate|]. split.
  - exists 0%nat, [97; 98], ex_source. split; [reflexivity|]. split; [left; reflexivity|reflexivity].
  - intros (j & name & s & N & [<-|[]] & C). destruct j as [|[|j]]; [discriminate N|vm_compute in C; discriminate|destruct j; discriminate N].
Qed.
(** the whole way, by calculation *)
Example C72_calc : exists s d, snd (handle_one true new_coll ex_from (SA_in [10; 0; 0; 255]) false (p_bytes ex_packet) [0]) = Search_ s /\
  server_search true false (repeat 5 12) 5075 [fun n => map (fun _ => false) n; ex_source] s = Some d /\
  client_reply false true [] (SA_in [10; 0; 0; 2]) 5076 d = RDone (Some {| r_beacon := None; r_guid := repeat 5 12; r_server := SA_in [10; 0; 0; 2]; r_port := 5075; r_ids := [7] |}) true.
Proof.
  set (s := match snd (handle_one true new_coll ex_from (SA_in [10; 0; 0; 255]) false (p_bytes ex_packet) [0]) with Search_ s => s | _ => {| s_version := 0; s_id := 0; s_mustreply := false; s_server := SA_unspec; s_port := 0; s_other := []; s_names := [] |} end).
  set (d := match server_search true false (repeat 5 12) 5075 [fun n => map (fun _ => false) n; ex_source] s with Some d => d | None => [] end). exists s, d. repeat split; vm_compute; reflexivity.
Qed.

Print Assumptions C39_scheduled.
Print Assumptions C39_bound.
Print Assumptions C39_first.
Print Assumptions C39_only.
Print Assumptions C39_no_abort.
Print Assumptions C39_long_name_refuted.
Print Assumptions C39_once_refuted.
Print Assumptions C39_backoff.
Print Assumptions C39_first_again.
Print Assumptions C39_reset_refuted.
Print Assumptions C71_search.
Print Assumptions C72_reply.
Print Assumptions C72_ignored.
Print Assumptions C72_read.
Print Assumptions C72_connect.
Print Assumptions C72_round_trip.
Print Assumptions C72_unicast.
Print Assumptions C72_ping.
Print Assumptions C72_tcp.
Print Assumptions C72_protocol_order_refuted.
Print Assumptions C72_short_refuted.
