(** Theorems on authentication (C79) and on hostile messages (C80). *)
From Coq Require Import String.
From Coq Require Import ZArith List Bool Lia ZifyBool ZifyNat.
From Verif Require Import Base BaseProofs WireModel WireSpec WireProofs SegModel SegSpec SegProofs
  BitMaskModel BitMaskSpec BitMaskProofs TypeModel TypeSpec TypeProofs TypeNameProofs LayoutProofs
  ValueModel ValueSpec ValueTypeProofs ValueSafeProofs ValueTopProofs ValueEncProofs ValueRoundProofs ValueUpdateProofs ValueProps
  LookupModel CopyModel MsgModel MsgSpec MsgProofs MsgProps MsgSafeProofs.
Import ListNotations.
Local Open Scope Z_scope.

(** ** C79: authentication *)

(** Whatever methods a server offers, in whatever order, a client selects "ca" if it is among them, else "anonymous". *)
Definition offer (be : bool) (sizes : list Z) (methods : list str) : list Z :=
  sizes ++ enc_size be (zlen methods) ++ concat (map (enc_str be) methods).
Lemma str_eqb_true a b : str_eqb a b = true <-> a = b.
Proof. apply str_eqb_eq. Qed.
Lemma c_methods_gets be host methods : Forall (fun m => zlen m < 2 ^ 32) methods -> forall selected, selected = [] \/ selected = t_ca \/ selected = t_anonymous ->
  exists s, gets_from be (c_methods host (List.length methods) selected) (concat (map (enc_str be) methods)) s /\
    (s = t_ca <-> selected = t_ca \/ In t_ca methods) /\ (s = [] \/ s = t_ca \/ s = t_anonymous).
Proof.
  induction 1 as [|m l HM HL IH]; intros selected SE; cbn [List.length c_methods map concat In].
  - exists selected. split; [apply gf_ret|]. tauto.
  - set (sel' := if str_eqb m t_ca || (str_eqb m t_anonymous && negb (str_eqb selected t_ca)) then m else selected).
    assert (A : (sel' = t_ca <-> selected = t_ca \/ m = t_ca) /\ (sel' = [] \/ sel' = t_ca \/ sel' = t_anonymous)).
    { unfold sel'. destruct (str_eqb m t_ca) eqn:E1; cbn [orb].
      - apply str_eqb_true in E1. subst m. tauto.
      - assert (m <> t_ca) by (intro; subst; discriminate E1). destruct (str_eqb m t_anonymous) eqn:E2; cbn [andb].
        + apply str_eqb_true in E2. subst m. destruct (str_eqb selected t_ca) eqn:E3; cbn [negb].
          * apply str_eqb_true in E3. tauto.
          * assert (selected <> t_ca) by (intro; subst; discriminate E3). tauto.
        + tauto. }
    destruct A as (A1 & A2). destruct (IH sel' A2) as (s & G & S1 & S2). exists s. split; [|split; [rewrite S1, A1; intuition|exact S2]].
    eapply gf_bind; [now apply gf_str|]. exact G.
Qed.
Theorem C79_client_choice : forall be junk find methods sizes fuel host cache,
  zlen sizes = 6 -> zlen methods < 2 ^ 32 -> Forall (fun m => zlen m < 2 ^ 32) methods ->
  exists choice, client_reads 1 junk find be fuel host cache (offer be sizes methods) = DOK (Took (AValidation choice), cache) /\
    (In t_ca methods -> choice = t_ca) /\ (~ In t_ca methods -> choice = t_anonymous).
Proof.
  intros be junk find methods sizes fuel host cache LS LM FM.
  destruct (c_methods_gets be host methods FM []) as (s & G & S1 & S2); [now left|].
  assert (LM' : 0 <= zlen methods <= 0xffffffff) by (pose proof (zlen_nonneg methods); lia).
  rewrite <- (Nat2Z.id (List.length methods)) in G. fold (zlen methods) in G.
  exists (if is_nil s then t_anonymous else s). split.
  - change (client_reads 1 junk find be fuel host cache (offer be sizes methods)) with (fst (run_flat (c_validate host cache) (inbuf (offer be sizes methods) be))).
    assert (K : gets_from be (c_validate host cache) (offer be sizes methods) (DOK (Took (AValidation (if is_nil s then t_anonymous else s)), cache))).
    { unfold c_validate, offer. apply gf_take; [exact LS|]. intros _. eapply gf_bind; [apply gf_size; exact LM'|].
      apply gf_nil. eapply gf_bind; [exact G|]. apply gf_if_good. }
    specialize (K []). rewrite app_nil_r in K. now rewrite K.
  - assert (D : t_ca <> []) by discriminate. split; intro H.
    + assert (s = t_ca) by tauto. now subst s.
    + assert (s <> t_ca) by (intro Q; apply S1 in Q as [Q|Q]; [now apply D|tauto]). destruct S2 as [->|[->| ->]]; [reflexivity|congruence|reflexivity].
Qed.

(** What the server offers, and its answer, arrive; the client selects "ca". *)
Theorem C79_server_offer : forall be junk find sts, status_ok sts ->
  arrives be (fun host w => OK (r_validation host w)) (client_reads 1 junk find) (eq (AValidation t_ca)) /\
  arrives be (fun host w => OK (r_validated host sts w)) (client_reads 9 junk find) (eq (AValidated sts)).
Proof.
  intros be junk find sts SO.
  assert (T1 : text_ok t_ca) by (split; [cbn; lia|cbn; intuition discriminate]).
  assert (T2 : text_ok t_anonymous) by (split; [cbn; lia|cbn; intuition discriminate]).
  split.
  - eapply arrives_program with (p := fun fuel host cache => c_handle host 1 junk find cache fuel)
      (e := (enc_u be 4 65536 ++ enc_u be 2 32767) ++ enc_size be 2 ++ enc_str be t_anonymous ++ enc_str be t_ca);
      [reflexivity|intros; apply c_handle_honest|reflexivity|..].
    + intros h pre. unfold r_validation. rewrite !to_wire_u_out, to_wire_size_out by lia. rewrite (puts_cstr be _ T2), (puts_cstr be _ T1). now rewrite <- !app_assoc.
    + intros fuel host cache F. change (c_handle host 1 junk find cache fuel) with (c_validate host cache). unfold c_validate. apply gf_take.
      * unfold zlen. rewrite !app_length, !enc_u_length. reflexivity.
      * intros _. eapply gf_bind; [apply gf_size; lia|]. change (Z.to_nat 2) with 2%nat. apply gf_nil. eapply gf_bind.
        -- cbn [c_methods]. eapply gf_bind; [apply gf_str; apply T2|]. apply gf_nil. eapply gf_bind; [apply gf_str; apply T1|]. apply gf_ret.
        -- change (AValidation t_ca) with (AValidation (if is_nil t_ca then t_anonymous else t_ca)). apply gf_if_good.
  - eapply arrives_program with (p := fun fuel host cache => c_handle host 9 junk find cache fuel) (e := enc_status be sts);
      [reflexivity|intros; apply c_handle_honest|reflexivity|..].
    + intros h pre. unfold r_validated. now rewrite (puts_status be _ SO).
    + intros fuel host cache F. change (c_handle host 9 junk find cache fuel) with (c_validated host cache). unfold c_validated. apply gf_nil. eapply gf_bind; [now apply gf_status|]. apply gf_if_good.
Qed.

(** The first message: who the server takes the client for. *)
Theorem C79_first : forall method user,
  let (c, sts) := authenticate new_creds method user in
  (method = t_ca -> sts = st_ok /\ match user with Some u => cr_method c = t_ca /\ cr_account c = u | None => c = new_creds end) /\
  (method = t_anonymous -> sts = st_ok /\ c = new_creds) /\
  (method <> t_ca -> method <> t_anonymous -> status_success sts = false /\ c = new_creds).
Proof.
  intros method user. unfold authenticate. cbv zeta.
  assert (E : forall b, str_eqb method b = true <-> method = b) by (intro; apply str_eqb_true).
  pose proof (E t_ca) as E1. pose proof (E t_anonymous) as E2.
  destruct (str_eqb method t_ca) eqn:H1; destruct (str_eqb method t_anonymous) eqn:H2; cbn [negb andb]; destruct user as [u|]; cbn [cr_method cr_account];
    repeat split; intros; try (exfalso; intuition congruence); try reflexivity; intuition; subst; try reflexivity; try discriminate.
Qed.

(** The whole of it: a client with "ca" is taken for the user it names, whoever it was taken for before. *)
Theorem C79_handshake : forall be find user host, zlen user < 2 ^ 32 -> zlen host < 2 ^ 32 ->
  arrives be (fun h => c_validation h t_ca (Some (ca_cred user host))) (server_reads 1 find)
    (fun r => exists auth, r = RValidate t_ca auth /\
       forall fuel fp before, (10 <= fuel)%nat -> authenticate before t_ca (user_of fuel fp auth) = ({| cr_method := t_ca; cr_account := user |}, st_ok)).
Proof.
  intros be find user host HU HH.
  assert (SD : sendable (ca_cred user host)).
  { exists (Mem tc_Struct [] [] [Mem tc_String t_user [] []; Mem tc_String t_host [] []]). split; [|cbn; lia]. split; [|split; [reflexivity|]].
    - split; [reflexivity|]. split; [cbn; repeat split; intros _; repeat constructor; cbn; intuition discriminate|cbn; unfold no_dot; cbn; intuition discriminate].
    - constructor. repeat (apply Forall2_cons; [|]); [..|apply Forall2_nil]; cbn [snd]; [now apply ok_struct|apply ok_str; [reflexivity|unfold fits32; lia]..]. }
  destruct (C76_validation be find t_ca (Some (ca_cred user host))) as (e & x & <- & W & R); [reflexivity|intros v E; injection E as <-; exact SD|].
  exists e, (RValidate t_ca (option_map received (Some (ca_cred user host)))). split; [|split; [exact W|exact R]].
  eexists. split; [reflexivity|]. intros fuel fp before F. do 10 (destruct fuel as [|fuel]; [lia|]). reflexivity.
Qed.

(** However often a client authenticates, the server takes it for anonymous or for a user it named with "ca". *)
Definition after (messages : list (str * option str)) : creds :=
  fold_left (fun c m => fst (authenticate c (fst m) (snd m))) messages new_creds.
Theorem C79_only_own : forall messages, let c := after messages in
  (cr_method c = t_anonymous /\ cr_account c = t_anonymous) \/ (cr_method c = t_ca /\ In (t_ca, Some (cr_account c)) messages).
Proof.
  intros messages. cbv zeta. unfold after. rewrite <- (rev_involutive messages). induction (rev messages) as [|(method, user) l IH]; [left; split; reflexivity|].
  cbn [rev]. rewrite fold_left_app. cbn [fold_left fst snd]. set (c := fold_left _ (rev l) new_creds) in *. unfold authenticate. cbv zeta. cbn [fst].
  assert (K : (cr_method c = t_anonymous /\ cr_account c = t_anonymous) \/ (cr_method c = t_ca /\ In (t_ca, Some (cr_account c)) (rev l ++ [(method, user)]))).
  { destruct IH as [H|(H & I)]; [now left|right]. split; [exact H|]. apply in_or_app. now left. }
  assert (N : is_nil (cr_method c) = false) by (destruct IH as [(-> & _)|(-> & _)]; reflexivity).
  destruct user as [u|]; [destruct (str_eqb method t_ca) eqn:E|]; rewrite ?N; [|exact K|exact K].
  apply str_eqb_true in E. subst method. right. cbn [cr_method cr_account is_nil t_ca]. split; [reflexivity|]. apply in_or_app. right. now left.
Qed.
(** But a client which then asks to be anonymous, or is refused, is still taken for that user: the server starts from what it had
    (src/serverconn.cpp:195). *)
Theorem C79_later_refuted : forall user method other, method <> t_ca ->
  after [(t_ca, Some user); (method, other)] = {| cr_method := t_ca; cr_account := user |}.
Proof.
  intros user method other N. unfold after, authenticate. cbn -[str_eqb t_ca]. assert (E : str_eqb method t_ca = false).
  { destruct (str_eqb method t_ca) eqn:E; [|reflexivity]. apply str_eqb_true in E. congruence. }
  rewrite E. destruct other; reflexivity.
Qed.

(** ** C80: hostile messages *)

(** Whatever the body of a message to a server, it is acted upon, ignored, refused, or ends in an exception (which closes the
    connection): the server never misbehaves, every Value it got can be used, no channel without a name is asked for, and
    nothing but an existing operation of the kind of the message is made to go on. *)
Theorem C80_server : forall cmd find be fuel host cache body,
  (forall ioid nodes, find ioid = OpTyped nodes -> exists m, nodes = flatten m /\ describable m = true /\ sized m /\ zlen nodes < 2 ^ 16) ->
  cache_ok cache -> is_bytes body -> (List.length body < fuel)%nat ->
  harmless (taken (request_ok find)) (server_reads cmd find be fuel host cache body).
Proof.
  intros cmd find be fuel host cache body F C B L. eapply res_ok_harmless with (P := taken (request_ok find)); [now intros x|].
  assert (FO : find_ok find). { intros ioid nodes E. destruct (F ioid nodes E) as (m & -> & X). exists m. split; [reflexivity|exact X]. }
  exact (s_handle_safe fuel host cmd find cache C FO (RB body be false) (conj B L)).
Qed.
Definition known_type (o : option value) : Prop :=
  forall p, o = Some p -> exists m, v_nodes p = flatten m /\ describable m = true /\ sized m /\ zlen (flatten m) < 2 ^ 16.
(** A client likewise, but for messages which update a subscription. *)
Theorem C80_client : forall cmd junk find be fuel host cache body, cmd <> 13 ->
  (forall ioid info, find ioid = Some info -> known_type (ri_proto info)) ->
  cache_ok cache -> is_bytes body -> (List.length body < fuel)%nat ->
  harmless (taken reply_ok) (client_reads cmd junk find be fuel host cache body).
Proof.
  intros cmd junk find be fuel host cache body N F C B L. eapply res_ok_harmless with (P := taken reply_ok); [now intros x|].
  unfold client_reads. destruct (cmd =? 13) eqn:E; [lia|].
  exact (c_handle_safe fuel host cmd junk find cache C F (RB body be false) (conj B L)).
Qed.
(** Those are harmless if every operation is a subscription of which the type is known. *)
Theorem C80_client_partial : forall junk find be fuel host cache body,
  (forall ioid info, find ioid = Some info -> known_type (ri_proto info) /\ ri_fl info = true /\ ri_proto info <> None) ->
  cache_ok cache -> is_bytes body -> (List.length body < fuel)%nat ->
  harmless (taken reply_ok) (client_reads 13 junk find be fuel host cache body).
Proof.
  intros junk find be fuel host cache body F C B L. eapply res_ok_harmless with (P := taken reply_ok); [now intros x|].
  change (client_reads 13 junk find be fuel host cache body) with (c_mon fuel host find cache (RB body be false)). unfold c_mon.
  exact (c_mon_safe _ fuel host find cache C F (RB body be false) (conj B L)).
Qed.
(** If not, five bytes suffice: an update for an operation which is not a subscription, or of which the server has not yet told the
    type, makes the client follow a null pointer (info->fl, src/clientmon.cpp:503). *)
Theorem C80_early_update_refuted : forall junk find be fuel host cache ioid info, u32 ioid -> find ioid = Some info -> ri_fl info = false ->
  client_reads 13 junk find be fuel host cache (enc_u be 4 ioid ++ [0]) = DUB.
Proof.
  intros junk find be fuel host cache ioid info HI FI FL.
  change (client_reads 13 junk find be fuel host cache (enc_u be 4 ioid ++ [0])) with (c_mon fuel host find cache (inbuf (enc_u be 4 ioid ++ [0]) be)). unfold c_mon.
  generalize (is_nil (rd (snd (run_flat (c_mon_head host cache) (inbuf (enc_u be 4 ioid ++ [0]) be))))). intro last.
  assert (G : gets_from be (c_mon_body last fuel host find cache) (enc_u be 4 ioid ++ [0]) DUB).
  { replace [0] with (enc_u be 1 0) by (destruct be; reflexivity). unfold c_mon_body. apply gf_nil. eapply gf_dbind.
    - unfold c_mon_head. nums. apply gf_nil. nums. change (sub 0 8 || sub 0 16) with false. change (sub 0 8) with false. cbn [andb]. cbv iota.
      apply (gf_bind be _ _ [] [] st_ok); [apply gf_ret|]. apply (gf_dbind be _ _ [] [] (None, cache)); [apply gf_pok|]. apply gf_pok.
    - cbv iota beta. cbn [fst snd]. apply gf_good. cbn [negb]. rewrite FI. change (status_success st_ok) with true. change (sub 0 8) with false. change (sub 0 16) with false. cbn [negb orb]. cbv iota.
      unfold c_update. rewrite FL. cbn [negb]. apply gf_ret. }
  specialize (G []). rewrite app_nil_r in G. now rewrite G.
Qed.
(** Also if the server told an empty type: cache_sync() then follows a null pointer (src/data.cpp:1212). *)
Theorem C80_empty_type_refuted : forall junk find be fuel host cache ioid, u32 ioid -> find ioid = Some {| ri_proto := None; ri_fl := true |} ->
  client_reads 13 junk find be fuel host cache (enc_u be 4 ioid ++ [0]) = DUB.
Proof.
  intros junk find be fuel host cache ioid HI FI.
  change (client_reads 13 junk find be fuel host cache (enc_u be 4 ioid ++ [0])) with (c_mon fuel host find cache (inbuf (enc_u be 4 ioid ++ [0]) be)). unfold c_mon.
  generalize (is_nil (rd (snd (run_flat (c_mon_head host cache) (inbuf (enc_u be 4 ioid ++ [0]) be))))). intro last.
  assert (G : gets_from be (c_mon_body last fuel host find cache) (enc_u be 4 ioid ++ [0]) DUB).
  { replace [0] with (enc_u be 1 0) by (destruct be; reflexivity). unfold c_mon_body. apply gf_nil. eapply gf_dbind.
    - unfold c_mon_head. nums. apply gf_nil. nums. change (sub 0 8 || sub 0 16) with false. change (sub 0 8) with false. cbn [andb]. cbv iota.
      apply (gf_bind be _ _ [] [] st_ok); [apply gf_ret|]. apply (gf_dbind be _ _ [] [] (None, cache)); [apply gf_pok|]. apply gf_pok.
    - cbv iota beta. cbn [fst snd]. apply gf_good. cbn [negb]. rewrite FI. change (status_success st_ok) with true. change (sub 0 8) with false. change (sub 0 16) with false. cbn [negb orb]. cbv iota.
      apply gf_ret. }
  specialize (G []). rewrite app_nil_r in G. now rewrite G.
Qed.

(** ** Examples: the hypotheses are met *)
Example C79_example :
  client_reads 1 (0, st_ok) (fun _ => None) true 20 true [] (offer true [0; 1; 0; 0; 127; 255] [[120; 53; 48; 57]; t_ca; t_anonymous]) = DOK (Took (AValidation t_ca), []) /\
  client_reads 1 (0, st_ok) (fun _ => None) true 20 true [] (offer true [0; 1; 0; 0; 127; 255] [[120; 53; 48; 57]]) = DOK (Took (AValidation t_anonymous), []) /\
  after [([120; 53; 48; 57], Some [114]); (t_ca, Some [117])] = {| cr_method := t_ca; cr_account := [117] |}.
Proof. repeat split; reflexivity. Qed.
Example C80_satisfiable : describable ex_type = true /\ sized ex_type /\ zlen (flatten ex_type) < 2 ^ 16 /\ cache_ok [] /\
  known_type (Some ex_value) /\ is_bytes [7; 0; 0; 0; 5; 0; 0; 0; 0; 1; 255].
Proof.
  pose proof ex_value_ok as (G & N & _). pose proof (good_describable _ G) as D. pose proof (good_sized _ G) as S.
  split; [exact D|]. split; [exact S|]. split; [reflexivity|]. split; [intros k v E; discriminate|]. split.
  - intros p E. injection E as <-. exists ex_type. split; [exact N|]. split; [exact D|]. split; [exact S|reflexivity].
  - repeat (apply Forall_cons; [unfold is_byte; lia|]). apply Forall_nil.
Qed.

Print Assumptions C79_client_choice.
Print Assumptions C79_server_offer.
Print Assumptions C79_first.
Print Assumptions C79_handshake.
Print Assumptions C79_only_own.
Print Assumptions C79_later_refuted.
Print Assumptions C80_server.
Print Assumptions C80_client.
Print Assumptions C80_client_partial.
Print Assumptions C80_early_update_refuted.
Print Assumptions C80_empty_type_refuted.
