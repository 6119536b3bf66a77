(** C41: decoding of UDP search and beacon datagrams. *)
From Coq Require Import ZArith List Bool Lia ZifyBool ZifyNat.
From Verif Require Import Base BaseProofs WireModel WireSpec WireProofs UdpModel UdpSpec UdpProofs.
Import ListNotations.
Local Open Scope Z_scope.

(** a datagram [d], of any bytes, as the socket delivers it: from an IPv4 or IPv6 address.  [junk] is the
    part of the receive buffer after it: the buffer is larger than any datagram *)
Definition received (src dest : sockaddr) (d junk : list Z) : Prop :=
  is_bytes d /\ zlen d <= 65536 /\ junk <> [] /\ (exists e, fmt_addr src e) /\ is_mcast src = false /\
  match dest with SA_in q => length q = 4%nat | _ => True end.

(** the datagram holds a search to be delivered here: directly, or, from this host to the local multicast
    group, behind the tag with the original destination *)
Definition search_in (dest : sockaddr) (local : bool) (d : list Z) (version : Z) (f : fields) : Prop :=
  (exists be body, message version be cmd_search body d /\ search_body be f body /\ forwarded f dest = false) \/
  (local = true /\ is_lo_mcast dest = true /\ exists orig inner be body, tagged orig inner d /\
    message version be cmd_search body inner /\ search_body be f body /\ is_any (f_addr f) = false /\ forwarded f orig = false).
Definition beacon_in (dest : sockaddr) (local : bool) (d : list Z) (version : Z) (guid : list Z) (a : sockaddr) (port : Z) (proto : str) : Prop :=
  exists be body, beacon_body be guid a port proto body /\
   (message version be cmd_beacon body d \/
    (local = true /\ is_lo_mcast dest = true /\ exists orig inner, tagged orig inner d /\ message version be cmd_beacon body inner)).

Lemma inner_open : forall host d junk inner pre, d = pre ++ inner ->
  open_ host (d ++ junk) (length d - length inner) (length d) = open_ host (pre ++ inner ++ junk) (length pre) (length pre + length inner).
Proof. intros host d junk inner pre ->. rewrite !app_length, <- app_assoc. f_equal. lia. Qed.
Lemma cmds : cmd_search <> cmd_beacon /\ cmd_search <> cmd_origin_tag /\ cmd_beacon <> cmd_origin_tag.
Proof. repeat split; discriminate. Qed.
Lemma ml_unique : forall v be c n b v' be' c' n' b' d, message_len v be c n b d -> message_len v' be' c' n' b' d -> c = c' /\ v = v' /\ be = be' /\ b = b'.
Proof.
  intros v be c n b v' be' c' n' b' d (fl & e4 & -> & _ & _ & _ & -> & R & _) (fl' & e4' & E & _ & _ & _ & -> & R' & _).
  apply rep_len in R, R'. cbn [app] in E. inversion E; subst. split; auto. split; auto. split; auto.
  assert (X : skipn (length e4) (e4 ++ b) = skipn (length e4') (e4' ++ b')) by (rewrite H3; f_equal; lia). rewrite !skipn_len_app in X. exact X.
Qed.
Lemma message_is : forall v be c b d, message v be c b d <-> exists n, message_len v be c n b d.
Proof. reflexivity. Qed.

(** one message, wherever it is *)
Lemma inner_all : forall host g src e_src dest orig local d junk inner, is_bytes d -> junk <> [] -> fmt_addr src e_src -> is_lo_mcast dest = true -> local = true ->
  tagged orig inner d ->
  match snd (process_one host g src dest (of_local local) (d ++ junk) (length d)) with
  | Search_ s => exists version be body f, message version be cmd_search body inner /\ search_body be f body /\ is_any (f_addr f) = false /\ forwarded f orig = false /\ s = search_of (c_tcp g) src version f
  | Beacon_ b => exists version be body guid a port proto, message version be cmd_beacon body inner /\ beacon_body be guid a port proto body /\
      b = {| b_version := version; b_guid := guid; b_server := if is_any a then src else a; b_port := port; b_proto := proto |}
  | UB | Forward _ => False
  | Abort | Throw | Ignore => True
  end.
Proof.
  intros host g src e_src dest orig local d junk inner B J FS LO -> T. cbn [of_local].
  destruct (tag_dec host g src dest d junk orig inner B T LO) as (-> & pre & D). unfold process_inner. rewrite (inner_open host d junk inner pre D).
  assert (BI : is_bytes inner) by (rewrite D in B; apply is_bytes_app in B; apply B).
  destruct (open_ host (pre ++ inner ++ junk) (length pre) (length pre + length inner)) as [(h, c)|] eqn:O; [|exact I].
  destruct (open_inv host pre inner junk h c BI O) as (be & body & M & ->).
  assert (BB : is_bytes body). { destruct M as (fl & e4 & -> & _). repeat (apply is_bytes_app in BI; destruct BI as (_ & BI)). exact BI. }
  assert (VO : valid orig) by (destruct T as (? & ? & e & ? & _ & FA); eapply fmt_valid; eauto).
  destruct (Z.eqb_spec (h_cmd h) cmd_search) as [E|N].
  - pose proof (search_sound host g src e_src orig OriginTag h (pre ++ firstn 8 inner) body junk be BB J FS VO) as S.
    destruct (snd (do_search _ _ _ _ _ _ _)); auto; try contradiction.
    + exfalso. destruct S as (S & _). congruence.
    + destruct S as (f & S1 & S2 & S3 & ->). exists (h_version h), be, body, f. rewrite E in M. split; [exists (h_len h); exact M|]. split; auto. split; auto. cbn [is_tag] in S2. rewrite andb_true_r in S2. exact S2.
  - destruct (Z.eqb_spec (h_cmd h) cmd_beacon) as [E|N2]; [|exact I].
    pose proof (beacon_sound host g src h (pre ++ firstn 8 inner) body junk be BB (fmt_addr_spec _ _ FS)) as S.
    destruct (snd (do_beacon _ _ _ _ _)); auto; try contradiction. destruct S as (guid & a & port & proto & S1 & ->). exists (h_version h), be, body, guid, a, port, proto. rewrite E in M. split; [exists (h_len h); exact M|]. auto.
Qed.
Lemma all_cases : forall host g src dest local d junk, received src dest d junk ->
  match snd (handle_one host g src dest local d junk) with
  | Search_ s => exists version f, search_in dest local d version f /\ s = search_of (c_tcp g) src version f
  | Beacon_ b => exists version guid a port proto, beacon_in dest local d version guid a port proto /\
      b = {| b_version := version; b_guid := guid; b_server := if is_any a then src else a; b_port := port; b_proto := proto |}
  | UB => False
  | Abort => local = true /\ is_lo_mcast dest = true /\ exists orig inner, tagged orig inner d
  | Forward _ => is_in dest = true /\ is_lo_mcast dest = false
  | Throw | Ignore => True
  end.
Proof.
  intros host g src dest local d junk (B & L & J & (e_src & FS) & MC & VD). unfold handle_one. rewrite MC. change (if local then Local else Remote) with (of_local local).
  destruct (open_ host (d ++ junk) 0 (length d)) as [(h, c)|] eqn:O.
  2: { unfold process_one. rewrite O. exact I. }
  destruct (open_inv host [] d junk h c B O) as (be & body & M & ->). cbn [app] in O.
  assert (BB : is_bytes body). { clear O. destruct M as (fl & e4 & -> & _). repeat (apply is_bytes_app in B; destruct B as (_ & B)). exact B. }
  destruct (Z.eq_dec (h_cmd h) cmd_origin_tag) as [E|N3].
  { destruct (tag_inv host g src dest local d junk be body h B L E M O) as [X|(LT & LO & orig & inner & T)]; [rewrite X; exact I|].
    pose proof (inner_all host g src e_src dest orig local d junk inner B J FS LO LT T) as P.
    destruct (snd (process_one _ _ _ _ _ _ _)); auto; try contradiction.
    - split; auto. split; auto. eauto.
    - destruct P as (version & be' & body' & f & P1 & P2 & P3 & P4 & ->). exists version, f. split; auto. right. split; auto. split; auto. exists orig, inner, be', body'. auto.
    - destruct P as (version & be' & body' & guid & a & port & proto & P1 & P2 & ->). exists version, guid, a, port, proto. split; auto. exists be', body'. split; auto. right. split; auto. split; auto. exists orig, inner. auto. }
  unfold process_one. rewrite O. destruct (Z.eqb_spec (h_cmd h) cmd_search) as [E|N].
  - pose proof (search_sound host g src e_src dest (of_local local) h (firstn 8 d) body junk be BB J FS VD) as S.
    destruct (snd (do_search _ _ _ _ _ _ _)); auto; try contradiction.
    + exfalso. destruct S as (S & _). destruct local; discriminate.
    + destruct S as (_ & S). exact S.
    + destruct S as (f & S1 & S2 & S3 & ->). exists (h_version h), f. split; auto. left. exists be, body. rewrite E in M. split; [exists (h_len h); exact M|]. auto.
  - destruct (Z.eqb_spec (h_cmd h) cmd_beacon) as [E|N2].
    + pose proof (beacon_sound host g src h (firstn 8 d) body junk be BB (fmt_addr_spec _ _ FS)) as S.
      destruct (snd (do_beacon _ _ _ _ _)); auto; try contradiction.
      destruct S as (guid & a & port & proto & S1 & ->). exists (h_version h), guid, a, port, proto. split; auto. exists be, body. split; auto. left. rewrite E in M. exists (h_len h). exact M.
    + replace (h_cmd h =? cmd_origin_tag) with false by lia. exact I.
Qed.
Lemma search_complete : forall host g src e_src dest local d junk version f, is_bytes d -> junk <> [] -> fmt_addr src e_src -> is_mcast src = false -> search_in dest local d version f ->
  snd (handle_one host g src dest local d junk) = Search_ (search_of (c_tcp g) src version f).
Proof.
  intros host g src e_src dest local d junk version f B J FS MC S. unfold handle_one. rewrite MC. change (if local then Local else Remote) with (of_local local).
  destruct S as [(be & body & (len & M) & SB & F)|(-> & LO & orig & inner & be & body & T & (len & M) & SB & A & F)].
  - destruct (open_dec host [] d junk _ _ _ _ _ B M) as (h & pre' & O & H1 & H2 & H3 & H4 & H5). cbn [app length Nat.add] in O. unfold process_one. rewrite O, H1.
    change (cmd_search =? cmd_search) with true. cbv iota. rewrite <- H2. eapply search_eval; eauto.
    + rewrite H5 in B. apply is_bytes_app in B. apply B.
    + destruct local; apply andb_false_r.
  - cbn [of_local]. destruct (tag_dec host g src dest d junk orig inner B T LO) as (-> & pre & D). unfold process_inner. rewrite (inner_open host d junk inner pre D).
    assert (BI : is_bytes inner) by (rewrite D in B; apply is_bytes_app in B; apply B).
    destruct (open_dec host pre inner junk _ _ _ _ _ BI M) as (h & pre' & O & H1 & H2 & H3 & H4 & H5). rewrite O, H1.
    change (cmd_search =? cmd_search) with true. cbv iota. rewrite <- H2. eapply search_eval; eauto.
    + rewrite H5 in BI. apply is_bytes_app in BI. apply BI.
    + rewrite A. reflexivity.
Qed.

(** Whatever bytes a datagram holds, and whatever was received before: a search is delivered exactly when
    the datagram is one, in the format of UdpSpec.v, and then with the identifier, the reply address and
    the names it holds. *)
Theorem C41_search : forall host g src dest local d junk s, received src dest d junk ->
  (snd (handle_one host g src dest local d junk) = Search_ s <->
   exists version f, search_in dest local d version f /\ s = search_of (c_tcp g) src version f).
Proof.
  intros host g src dest local d junk s R. split.
  - intros E. pose proof (all_cases host g src dest local d junk R) as A. rewrite E in A. exact A.
  - intros (version & f & S & ->). destruct R as (B & L & J & (e & FS) & MC & VD). eapply search_complete; eauto.
Qed.
(** The same for beacons. *)
Theorem C41_beacon : forall host g src dest local d junk b, received src dest d junk ->
  (snd (handle_one host g src dest local d junk) = Beacon_ b <->
   exists version guid a port proto, beacon_in dest local d version guid a port proto /\
     b = {| b_version := version; b_guid := guid; b_server := if is_any a then src else a; b_port := port; b_proto := proto |}).
Proof.
  intros host g src dest local d junk b R. split.
  - intros E. pose proof (all_cases host g src dest local d junk R) as A. rewrite E in A. exact A.
  - intros (version & guid & a & port & proto & (be & body & BB & X) & ->). destruct R as (B & L & J & (e & FS) & MC & VD). pose proof (fmt_addr_spec _ _ FS) as US.
    unfold handle_one. rewrite MC. change (if local then Local else Remote) with (of_local local).
    destruct X as [(len & M)|(-> & LO & orig & inner & T & (len & M))].
    + destruct (open_dec host [] d junk _ _ _ _ _ B M) as (h & pre' & O & H1 & H2 & H3 & H4 & H5). cbn [app length Nat.add] in O. unfold process_one. rewrite O, H1.
      change (cmd_beacon =? cmd_search) with false. change (cmd_beacon =? cmd_beacon) with true. cbv iota. rewrite <- H2. apply beacon_eval; auto.
    + cbn [of_local]. destruct (tag_dec host g src dest d junk orig inner B T LO) as (-> & pre & D). unfold process_inner. rewrite (inner_open host d junk inner pre D).
      assert (BI : is_bytes inner) by (rewrite D in B; apply is_bytes_app in B; apply B).
      destruct (open_dec host pre inner junk _ _ _ _ _ BI M) as (h & pre' & O & H1 & H2 & H3 & H4 & H5). rewrite O, H1.
      change (cmd_beacon =? cmd_search) with false. change (cmd_beacon =? cmd_beacon) with true. cbv iota. rewrite <- H2. apply beacon_eval; auto.
Qed.
(** No datagram makes the decoder read or write outside of the receive buffer, although it patches names
    in place; and only a tagged datagram of this very host reaches an assertion. *)
Theorem C41_safe_partial : forall host g src dest local d junk, received src dest d junk ->
  snd (handle_one host g src dest local d junk) <> UB /\
  (snd (handle_one host g src dest local d junk) = Abort -> local = true /\ is_lo_mcast dest = true /\ exists orig inner, tagged orig inner d).
Proof.
  intros host g src dest local d junk R. pose proof (all_cases host g src dest local d junk R) as A. destruct (snd _); split; try discriminate; auto; contradiction.
Qed.
(** A search sent to one address of this host reaches every server on it: the datagram which is forwarded to
    the local multicast group is delivered there as though the original had been received. *)
Theorem C41_forward : forall host g src e_src dest e_dest local d junk version be body f,
  received src dest d junk -> fmt_addr src e_src -> is_bytes e_src -> is_any src = false -> fmt_addr dest e_dest -> is_bytes e_dest ->
  message version be cmd_search body d -> search_body be f body -> forwarded f dest = true ->
  exists l, snd (handle_one host g src dest local d junk) = Forward l /\ zlen l = zlen d + 24 /\
  forall host' g' src' e_src' dest' junk', fmt_addr src' e_src' -> is_mcast src' = false -> is_lo_mcast dest' = true -> junk' <> [] ->
    snd (handle_one host' g' src' dest' true l junk') = Search_ (search_of (c_tcp g') src version f).
Proof.
  intros host g src e_src dest e_dest local d junk version be body f R FS BS NA FD BD (len & M) SB F. destruct R as (B & L & J & _ & MC & VD).
  destruct (open_dec host [] d junk _ _ _ _ _ B M) as (h & pre' & O & H1 & H2 & H3 & H4 & H5). cbn [app length Nat.add] in O, H4.
  assert (BB : is_bytes body) by (rewrite H5 in B; apply is_bytes_app in B; apply B).
  assert (BP : is_bytes (firstn 8 d)) by (rewrite H5 in B; apply is_bytes_app in B; apply B).
  assert (NO : of_local local <> OriginTag) by (destruct local; discriminate).
  destruct (search_forward host g src e_src dest e_dest (of_local local) h (firstn 8 d) body junk be f BB FS BS FD NO SB F) as (body' & E & S' & LB & BL).
  exists (tag_bytes e_dest ++ firstn 8 d ++ body'). split.
  { unfold handle_one. rewrite MC. change (if local then Local else Remote) with (of_local local). unfold process_one. rewrite O, H1.
    change (cmd_search =? cmd_search) with true. cbv iota. rewrite H4. exact E. }
  assert (LD : length d = length (firstn 8 d ++ body')) by (rewrite H5 at 1; rewrite !app_length; lia).
  split. { rewrite zlen_app. unfold zlen. rewrite <- LD. unfold tag_bytes. rewrite !app_length, (fmt_addr_len _ _ FD). cbn [length]. lia. }
  intros host' g' src' e_src' dest' junk' FS' MC' LO' J'.
  set (f' := {| f_id := f_id f; f_flags := Z.land (f_flags f) 127; f_addr := if is_any (f_addr f) then src else f_addr f; f_port := f_port f; f_protos := f_protos f; f_names := f_names f |}) in *.
  assert (NA' : is_any (f_addr f') = false) by (cbn; destruct (is_any (f_addr f)) eqn:?; auto).
  assert (FB : f_flags f' = Z.land (f_flags f) 127) by reflexivity.
  assert (EQ : search_of (c_tcp g') src version f = search_of (c_tcp g') src' version f').
  { unfold search_of. rewrite NA'. cbn [f' f_id f_flags f_addr f_port f_protos f_names]. f_equal. rewrite Z.land_spec. rewrite (Z.testbit_odd 127 0). cbn. rewrite andb_true_r. reflexivity. }
  rewrite EQ.
  assert (BT : is_bytes (tag_bytes e_dest ++ firstn 8 d ++ body')).
  { apply is_bytes_app. split; [|apply is_bytes_app; auto]. unfold tag_bytes. repeat (apply is_bytes_app; split); auto; repeat constructor; lia. }
  apply (search_complete host' g' src' e_src' dest' true _ junk' version f'); auto.
  right. split; auto. split; auto. exists dest, (firstn 8 d ++ body'), be, body'. split; [|split; [|split; [exact S'|split; auto]]].
  - exists 2, true, e_dest, []. split; auto. exists 128, [0; 0; 0; 16]. cbn [app]. split; [unfold tag_bytes; reflexivity|]. split; [discriminate|]. split; [reflexivity|]. split; [reflexivity|]. split; [reflexivity|].
    split; [split; [reflexivity|]; split; [repeat constructor; lia|reflexivity]|]. change (zlen []) with 0. rewrite zlen_app. pose proof (zlen_nonneg (firstn 8 d ++ body')). unfold zlen at 1. rewrite (fmt_addr_len _ _ FD). lia.
  - exists len. destruct M as (fl & e4 & D & M1 & M2 & M3 & M4 & M5 & M6). exists fl, e4. split.
    + rewrite D. pose proof (rep_len _ _ _ _ M5) as L4. do 4 (destruct e4 as [|? e4]; [discriminate|]). destruct e4; [|discriminate]. reflexivity.
    + repeat split; auto; try apply M5. unfold zlen in *. lia.
  - unfold forwarded. rewrite FB. rewrite Z.land_spec. replace (Z.testbit 127 7) with false by reflexivity. rewrite andb_false_r. reflexivity.
Qed.

(** ** Concrete datagrams *)
Definition ex_src := SA_in [10; 0; 0; 5].
Definition ex_any := v4_prefix ++ [0; 0; 0; 0].
Definition ex_head (flags cmd len : Z) := [202; 2; flags; cmd; 0; 0; 0; len].
(** search number 7, flags, reply to the sender's port 5075, protocols, "ab" as 258 *)
Definition ex_body (flags : Z) (addr protos : list Z) := [0; 0; 0; 7; flags; 0; 0; 0] ++ addr ++ [19; 211] ++ protos ++ [0; 1] ++ [0; 0; 1; 2; 2; 97; 98].
Definition p_tcp := [1; 3; 116; 99; 112].
Definition p_udp := [1; 3; 117; 100; 112].
Definition ex_fields (flags : Z) (a : sockaddr) (protos : list str) := {| f_id := 7; f_flags := flags; f_addr := a; f_port := 5075; f_protos := protos; f_names := [([97; 98], 258)] |}.
Definition ex_found := Search_ {| s_version := 2; s_id := 7; s_mustreply := true; s_server := ex_src; s_port := 5075; s_other := []; s_names := [([97; 98], 258)] |}.
Definition lo_group := SA_in [224; 0; 0; 128].
Definition ex_plain := ex_head 128 3 38 ++ ex_body 1 ex_any p_tcp.
Example C41_search_nonvacuous :
  received ex_src (SA_in [10; 0; 0; 255]) ex_plain [0] /\
  search_in (SA_in [10; 0; 0; 255]) false ex_plain 2 (ex_fields 1 (SA_in [0; 0; 0; 0]) [t_tcp]) /\
  snd (handle_one false new_coll ex_src (SA_in [10; 0; 0; 255]) false ex_plain [0]) = ex_found.
Proof.
  split.
  { split; [repeat constructor; lia|]. split; [discriminate|]. split; [discriminate|]. split; [exists (v4_prefix ++ [10; 0; 0; 5]); constructor; reflexivity|]. split; reflexivity. }
  split; [|reflexivity]. left. exists true, (ex_body 1 ex_any p_tcp). split; [|split; [|reflexivity]].
  - exists 38, 128, [0; 0; 0; 38]. split; [reflexivity|]. split; [discriminate|]. split; [reflexivity|]. split; [reflexivity|]. split; [reflexivity|].
    split; [split; [reflexivity|]; split; [repeat constructor; lia|reflexivity]|discriminate].
  - exists [0; 0; 0; 7], [0; 0; 0], ex_any, [19; 211], [1], [3; 116; 99; 112], [0; 1], [0; 0; 1; 2; 2; 97; 98], [].
    split; [reflexivity|]. split; [split; [reflexivity|]; split; [repeat constructor; lia|reflexivity]|]. split; [reflexivity|]. split; [constructor; reflexivity|].
    split; [split; [reflexivity|]; split; [repeat constructor; lia|reflexivity]|]. split; [constructor; unfold zlen; cbn; lia|].
    split; [apply (strs_cons true t_tcp [] [3; 116; 99; 112] []); [apply (str_bytes true t_tcp [3]); constructor; unfold zlen; cbn; lia|constructor]|].
    split; [split; [reflexivity|]; split; [repeat constructor; lia|reflexivity]|].
    apply (names_cons true [97; 98] 258 [] [0; 0; 1; 2] [2] []); [split; [reflexivity|]; split; [repeat constructor; lia|reflexivity]|constructor; unfold zlen; cbn; lia|constructor].
Qed.
(** The unicast search is forwarded, and every other collector of the host then delivers it. *)
Definition ex_forwarded := (ex_head 128 22 16 ++ v4_prefix ++ [10; 0; 0; 9]) ++ ex_head 128 3 38 ++ ex_body 1 (v4_prefix ++ [10; 0; 0; 5]) p_tcp.
Example C41_forward_nonvacuous :
  snd (handle_one false new_coll ex_src (SA_in [10; 0; 0; 9]) false (ex_head 128 3 38 ++ ex_body 129 ex_any p_tcp) [0]) = Forward ex_forwarded /\
  snd (handle_one false new_coll (SA_in [10; 0; 0; 9]) lo_group true ex_forwarded [0; 0]) = ex_found /\
  (* nobody outside of the host can have the tag believed *)
  snd (handle_one false new_coll (SA_in [10; 0; 0; 9]) lo_group false ex_forwarded [0; 0]) = Ignore.
Proof. split; [vm_compute; reflexivity|]. split; vm_compute; reflexivity. Qed.
Example C41_beacon_nonvacuous :
  snd (handle_one false new_coll ex_src (SA_in [10; 0; 0; 255]) false (ex_head 128 0 38 ++ [1; 2; 3; 4; 5; 6; 7; 8; 9; 10; 11; 12] ++ [0; 0; 0; 0] ++ ex_any ++ [19; 211] ++ [3; 116; 99; 112]) [0]) =
  Beacon_ {| b_version := 2; b_guid := [1; 2; 3; 4; 5; 6; 7; 8; 9; 10; 11; 12]; b_server := ex_src; b_port := 5075; b_proto := t_tcp |}.
Proof. vm_compute. reflexivity. Qed.
(** A name which is not terminated within the datagram, a size beyond its end: ignored. *)
Example C41_truncated : 
  snd (handle_one false new_coll ex_src (SA_in [10; 0; 0; 255]) false (ex_head 128 3 37 ++ removelast (ex_body 1 ex_any p_tcp)) [98; 99]) = Ignore.
Proof. reflexivity. Qed.

(** ** What does not hold *)
(** The list of protocols of one datagram is not all that decides: after any datagram with "tcp" in it, names
    are delivered for datagrams without. *)
Theorem C41_protocol_refuted :
  let d := ex_head 128 3 38 ++ ex_body 1 ex_any p_udp in
  let g := fst (handle_one false new_coll ex_src (SA_in [10; 0; 0; 255]) false ex_plain [0]) in
  let names_of o := match o with Search_ s => Some (s_names s) | _ => None end in
  names_of (snd (handle_one false new_coll ex_src (SA_in [10; 0; 0; 255]) false d [0])) = Some [] /\
  names_of (snd (handle_one false g ex_src (SA_in [10; 0; 0; 255]) false d [0])) = Some [([97; 98], 258)].
Proof. split; vm_compute; reflexivity. Qed.
(** A process on this host can end every other which has a collector: an origin tag with a search still
    marked unicast reaches assert(). *)
Theorem C41_abort_refuted :
  snd (handle_one false new_coll (SA_in [127; 0; 0; 1]) lo_group true
    ((ex_head 128 22 16 ++ v4_prefix ++ [10; 0; 0; 9]) ++ ex_head 128 3 38 ++ ex_body 129 (v4_prefix ++ [10; 0; 0; 7]) p_tcp) [0]) = Abort.
Proof. reflexivity. Qed.
(** A search shorter than its header makes a new collector throw: the message is reported as a programming
    error, at the highest level, whoever sent it. *)
Theorem C41_throw_refuted : forall src dest local, is_mcast src = false ->
  snd (handle_one false new_coll src dest local (ex_head 128 3 0) [0]) = Throw.
Proof. intros src dest local M. unfold handle_one. rewrite M. destruct local; reflexivity. Qed.

Print Assumptions C41_search.
Print Assumptions C41_beacon.
Print Assumptions C41_safe_partial.
Print Assumptions C41_forward.
Print Assumptions C41_protocol_refuted.
Print Assumptions C41_abort_refuted.
Print Assumptions C41_throw_refuted.
