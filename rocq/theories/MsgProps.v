(** Theorems on messages: C76 (requests), C77 (replies), C78 (values end to end), C79 (authentication), C80 (hostile messages). *)
From Coq Require Import ZArith List Bool Lia ZifyBool ZifyNat.
From Verif Require Import Base BaseProofs WireModel WireSpec WireProofs SegModel SegSpec SegProofs
  BitMaskModel BitMaskSpec BitMaskProofs TypeModel TypeSpec TypeProofs TypeNameProofs
  ValueModel ValueSpec LayoutProofs ValueTypeProofs ValueSafeProofs ValueTopProofs ValueEncProofs ValueRoundProofs ValueUpdateProofs ValueProps
  MsgModel MsgSpec MsgProofs.
Import ListNotations.
Local Open Scope Z_scope.

(** ** C76: requests *)

Ltac server k find := eapply arrives_program with (p := fun fuel host cache => s_handle host k find cache fuel);
  [reflexivity|intros; apply s_handle_honest; try discriminate|try reflexivity|..].
Ltac num := lazymatch goal with
  | |- gets_from _ (p_u _ 4 _) _ _ => apply gf_u4; assumption
  | |- gets_from _ (p_u _ 1 _) _ _ => apply gf_u1; lia
  | |- _ => apply gf_u; cbn; lia
  end.
Ltac nums := repeat lazymatch goal with |- gets_from _ (pbind (p_u _ _ _) _) (_ ++ _) _ => eapply gf_bind; [num|] end.

Definition cmd_of (k : gkind) : Z := match k with KGet => 10 | KPut => 11 | KRpc => 20 end.


Lemma gpr_handle k host find cache fuel : s_handle host (cmd_of k) find cache fuel = s_gpr fuel host k find cache.
Proof. destruct k; reflexivity. Qed.

(** INIT of GET, PUT and RPC: the server gets the pvRequest. *)
Theorem C76_init : forall be k find sid ioid req, u32 sid -> u32 ioid -> sendable req ->
  arrives be (fun host => c_init host sid ioid req) (server_reads (cmd_of k) find)
    (eq (RInit k sid ioid 8 (Some (received req)))).
Proof.
  intros be k find sid ioid req HS HI (m & V & L).
  assert (T : typed_ok (Some (m, req))) by (split; assumption).
  server (cmd_of k) find; [destruct k; discriminate|..].
  - intros h pre. unfold c_init. rewrite (puts_sub be sid ioid 8 h pre). rewrite (oputs_typed be _ T h). unfold enc_sub, enc_ids. now rewrite <- !app_assoc.
  - intros fuel host cache F. destruct (gf_typed be host cache _ fuel T) as (r & R & VE); [rewrite !app_length in F; lia|].
    rewrite gpr_handle. unfold s_gpr. nums. change (sub 8 8) with true. cbv iota.
    apply gf_nil. eapply gf_dbind; [exact R|]. cbn [fst snd]. rewrite VE. apply gf_if_good.
Qed.

(** GET of the value; also before a PUT, to fetch the present value (subcmd 0x40). *)
Theorem C76_get : forall be find sid ioid nodes, u32 sid -> u32 ioid -> find ioid = OpTyped nodes ->
  arrives be (fun host w => OK (c_get host sid ioid w)) (server_reads 10 find) (eq (RExec KGet sid ioid 0 None)) /\
  arrives be (fun host w => OK (c_get_first host sid ioid w)) (server_reads 11 find) (eq (RExec KPut sid ioid 64 None)).
Proof.
  intros be find sid ioid nodes HS HI FI. split.
  - server 10 find.
    + intros h pre. unfold c_get. rewrite (puts_sub be sid ioid 0 h pre). unfold enc_sub, enc_ids. now rewrite <- !app_assoc.
    + intros fuel host cache F. change (s_handle host 10 find cache fuel) with (s_gpr fuel host KGet find cache). unfold s_gpr. nums. apply gf_nil. nums.
      change (sub 0 8) with false. cbv iota zeta. rewrite FI. apply gf_if_good.
  - server 11 find.
    + intros h pre. unfold c_get_first. rewrite (puts_sub be sid ioid 64 h pre). unfold enc_sub, enc_ids. now rewrite <- !app_assoc.
    + intros fuel host cache F. change (s_handle host 11 find cache fuel) with (s_gpr fuel host KPut find cache). unfold s_gpr. nums. apply gf_nil. nums.
      change (sub 64 8) with false. cbv iota zeta. rewrite FI. apply gf_if_good.
Qed.

(** PUT: the server gets a new Value of the type it gave to connect(), with exactly the fields marked which the client had
    marked, holding what they held. *)
Theorem C76_put : forall be find sid ioid m v, u32 sid -> u32 ioid -> updatable m -> value_of m v -> find ioid = OpTyped (flatten m) ->
  arrives be (fun host => c_put host sid ioid v) (server_reads 11 find)
    (fun r => exists v', r = RExec KPut sid ioid 0 (Some v') /\ copy_of_marked m v None v').
Proof.
  intros be find sid ioid m v HS HI (G & MC & LN) V FI.
  destruct (valid_round be v m (fresh m) None V (fresh_storage m G) MC LN I) as (e & new & E & D & U).
  eapply arrives_program with (p := fun fuel host cache => s_handle host 11 find cache fuel) (x := RExec KPut sid ioid 0 (Some (Val (flatten m) new))).
  - reflexivity.
  - intros. apply s_handle_honest. discriminate.
  - eexists. split; [reflexivity|]. split; [reflexivity|]. exists (fresh m). split; [now apply fresh_is_new|exact U].
  - intros h pre. unfold c_put. rewrite (puts_sub be sid ioid 0 h pre), E. unfold enc_sub, enc_ids. now rewrite <- !app_assoc.
  - intros fuel host cache F. change (s_handle host 11 find cache fuel) with (s_gpr fuel host KPut find cache). unfold s_gpr. nums.
    change (sub 0 8) with false. change (sub 0 64) with false. cbn [is_get negb andb]. cbv iota zeta. rewrite FI. cbv iota. rewrite (fresh_new m G).
    apply gf_nil. eapply gf_dbind; [intro rest; apply D; rewrite !app_length in F; lia|]. apply gf_if_good.
Qed.

(** RPC: the server gets the argument, with its type. *)
Theorem C76_rpc : forall be find sid ioid arg nodes, u32 sid -> u32 ioid -> (forall v, arg = Some v -> sendable v) ->
  find ioid = OpUntyped \/ find ioid = OpTyped nodes ->
  arrives be (fun host => c_rpc host sid ioid arg) (server_reads 20 find) (eq (RExec KRpc sid ioid 0 (option_map received arg))).
Proof.
  intros be find sid ioid arg nodes HS HI A FI.
  assert (exists o, typed_ok o /\ arg = option_map snd o) as (o & T & ->).
  { destruct arg as [v|]; [|exists None; split; constructor]. destruct (A v eq_refl) as (m & V & L). exists (Some (m, v)). split; [split; assumption|reflexivity]. }
  server 20 find.
  - intros h pre. unfold c_rpc. rewrite (puts_sub be sid ioid 0 h pre). rewrite (oputs_typed be _ T h). unfold enc_sub, enc_ids. now rewrite <- !app_assoc.
  - intros fuel host cache F. destruct (gf_typed be host cache _ fuel T) as (r & R & VE); [rewrite !app_length in F; lia|].
    change (s_handle host 20 find cache fuel) with (s_gpr fuel host KRpc find cache). unfold s_gpr. nums. change (sub 0 8) with false. cbv iota zeta.
    replace (option_map received (option_map snd o)) with (value_or_empty r) by (rewrite VE; now destruct o as [(?, ?)|]).
    apply gf_nil. destruct FI as [-> | ->]; (eapply gf_dbind; [exact R|apply gf_if_good]).
Qed.

(** Subscribing, with and without flow control, pausing and resuming, and acknowledging. *)
Theorem C76_subscribe : forall be find sid ioid req queue, u32 sid -> u32 ioid -> sendable req -> (forall n, queue = Some n -> u32 n) ->
  arrives be (fun host => c_mon_init host sid ioid req queue) (server_reads 13 find)
    (eq (match queue with
         | Some n => RMonInit sid ioid 136 (Some (received req)) n
         | None => RMonInit sid ioid 8 (Some (received req)) 0
         end)).
Proof.
  intros be find sid ioid req queue HS HI (m & V & L) Q. assert (T : typed_ok (Some (m, req))) by (split; assumption).
  destruct queue as [n|]; server 13 find.
  - intros h pre. unfold c_mon_init. rewrite (puts_sub be sid ioid 136 h pre). rewrite (oputs_typed be _ T h). cbn [obind]. rewrite to_wire_u_out. unfold enc_sub, enc_ids. now rewrite <- !app_assoc.
  - intros fuel host cache F. destruct (gf_typed be host cache _ fuel T) as (r & R & VE); [rewrite !app_length in F; lia|].
    change (s_handle host 13 find cache fuel) with (s_mon fuel host find cache). unfold s_mon. nums. change (sub 136 8) with true. change (sub 136 128) with true. cbv iota.
    eapply gf_dbind; [exact R|]. apply gf_nil. eapply gf_bind; [apply gf_u4; auto|]. cbn [fst snd]. rewrite VE. apply gf_if_good.
  - intros h pre. unfold c_mon_init. rewrite (puts_sub be sid ioid 8 h pre). rewrite (oputs_typed be _ T h). cbn [obind]. unfold enc_sub, enc_ids. now rewrite <- !app_assoc.
  - intros fuel host cache F. destruct (gf_typed be host cache _ fuel T) as (r & R & VE); [rewrite !app_length in F; lia|].
    change (s_handle host 13 find cache fuel) with (s_mon fuel host find cache). unfold s_mon. nums. change (sub 8 8) with true. change (sub 8 128) with false. cbv iota.
    apply gf_nil. eapply gf_dbind; [exact R|]. apply (gf_bind be _ _ [] [] 0); [apply gf_ret|]. cbn [fst snd]. rewrite VE. apply gf_if_good.
Qed.
Theorem C76_monitor_control : forall be find sid ioid n op (pause : bool), u32 sid -> u32 ioid -> u32 n ->
  find ioid = op -> op = OpUntyped \/ (exists nodes, op = OpTyped nodes) ->
  arrives be (fun host w => OK (c_mon_run host sid ioid pause w)) (server_reads 13 find) (eq (RMonCtl sid ioid (if pause then 4 else 68) 0)) /\
  arrives be (fun host w => OK (c_mon_ack host sid ioid n w)) (server_reads 13 find) (eq (RMonCtl sid ioid 128 n)).
Proof.
  intros be find sid ioid n op pause HS HI HN FI OPS. split.
  - server 13 find.
    + intros h pre. unfold c_mon_run. rewrite (puts_sub be sid ioid _ h pre). unfold enc_sub, enc_ids. now rewrite <- !app_assoc.
    + intros fuel host cache F. change (s_handle host 13 find cache fuel) with (s_mon fuel host find cache). unfold s_mon. nums. apply gf_nil.
      eapply gf_bind; [apply gf_u1; destruct pause; lia|]. replace (sub _ 8) with false by (destruct pause; reflexivity). replace (sub _ 128) with false by (destruct pause; reflexivity).
      apply (gf_bind be _ _ [] [] 0); [apply gf_ret|]. apply gf_good. cbn [negb]. rewrite FI. destruct OPS as [-> | (nodes & ->)]; apply gf_pok.
  - server 13 find.
    + intros h pre. unfold c_mon_ack. rewrite (puts_sub be sid ioid _ h pre), to_wire_u_out. unfold enc_sub, enc_ids. now rewrite <- !app_assoc.
    + intros fuel host cache F. change (s_handle host 13 find cache fuel) with (s_mon fuel host find cache). unfold s_mon. nums.
      change (sub 128 8) with false. change (sub 128 128) with true. cbv iota. apply gf_nil. nums.
      apply gf_good. cbn [negb]. rewrite FI. destruct OPS as [-> | (nodes & ->)]; apply gf_pok.
Qed.

(** Closing a channel, ending and cancelling an operation, asking for a type. *)
Theorem C76_others : forall be find sid ioid, u32 sid -> u32 ioid ->
  arrives be (fun host w => OK (c_destroy_channel host sid ioid w)) (server_reads 8 find) (eq (RDestroyChan sid ioid)) /\
  arrives be (fun host w => OK (c_destroy_request host sid ioid w)) (server_reads 15 find) (eq (RDestroyReq sid ioid)) /\
  arrives be (fun host w => OK (c_destroy_request host sid ioid w)) (server_reads 21 find) (eq (RCancel sid ioid)) /\
  arrives be (fun host w => OK (c_get_field host sid ioid w)) (server_reads 17 find) (eq (RGetField sid ioid [])).
Proof.
  intros be find sid ioid HS HI.
  repeat apply conj.
  - server 8 find; [intros h pre; unfold c_destroy_channel; now rewrite (puts_ids be sid ioid h pre)|]. intros fuel host cache F.
    change (s_handle host 8 find cache fuel) with (s_pair host ffffffff RDestroyChan cache). unfold s_pair, enc_ids. nums. apply gf_nil. nums. apply gf_good. apply gf_pok.
  - server 15 find; [intros h pre; unfold c_destroy_request; now rewrite (puts_ids be sid ioid h pre)|]. intros fuel host cache F.
    change (s_handle host 15 find cache fuel) with (s_pair host 0 RDestroyReq cache). unfold s_pair, enc_ids. nums. apply gf_nil. nums. apply gf_good. apply gf_pok.
  - server 21 find; [intros h pre; unfold c_destroy_request; now rewrite (puts_ids be sid ioid h pre)|]. intros fuel host cache F.
    change (s_handle host 21 find cache fuel) with (s_pair host 0 RCancel cache). unfold s_pair, enc_ids. nums. apply gf_nil. nums. apply gf_good. apply gf_pok.
  - server 17 find; [intros h pre; unfold c_get_field; rewrite (puts_ids be sid ioid h pre), (puts_cstr be []) by (split; [reflexivity|auto]); unfold enc_ids; now rewrite <- !app_assoc|].
    intros fuel host cache F. change (s_handle host 17 find cache fuel) with (s_get_field host cache). unfold s_get_field. nums.
    apply gf_nil. eapply gf_bind; [apply gf_str; reflexivity|]. apply gf_good. apply gf_pok.
Qed.

(** A channel is asked for by name.  (The server acts on each name before reading the next, so a message whose end is
    missing is acted on as far as it goes, and the connection then closed: [C76_create_truncated].) *)
Theorem C76_create : forall be find cid name, u32 cid -> zlen name < 2 ^ 32 -> name <> [] ->
  exists e, (forall host pre, c_create host cid name (outbuf pre be) = outbuf (pre ++ e) be) /\
    forall host fuel cache, server_reads 7 find be fuel host cache e = DOK (Took (RCreate [(cid, name)] true), cache) /\
    forall e1 e2, e = e1 ++ e2 -> e2 <> [] -> exists l, server_reads 7 find be fuel host cache e1 = DOK (Took (RCreate l false), cache).
Proof.
  intros be find cid name HC HN NE. exists (enc_u be 2 1 ++ enc_u be 4 cid ++ enc_str be name). split.
  { intros h pre. unfold c_create. rewrite to_wire_u_out, to_wire_u_out, (puts_str be name HN). now rewrite <- !app_assoc. }
  intros host fuel cache. unfold server_reads. change (s_handle host 7 find cache fuel) with (s_create host cache).
  assert (K : gets_from be (s_create host cache) (enc_u be 2 1 ++ enc_u be 4 cid ++ enc_str be name) (DOK (Took (RCreate [(cid, name)] true), cache))).
  { unfold s_create. nums. change (Z.to_nat 1) with 1%nat. apply gf_nil. apply (gf_bind be _ _ _ [] [(cid, name)]); [|apply gf_good; apply gf_pok]. cbn [s_names]. nums.
    apply gf_nil. eapply gf_bind; [apply gf_str; exact HN|]. apply gf_good. cbn [negb orb]. destruct name; [congruence|]. cbn [is_nil]. apply (gf_bind be _ _ [] [] []); apply gf_ret. }
  specialize (K []). rewrite app_nil_r in K. split; [change (RB ?b ?e false) with (inbuf b e); now rewrite K|].
  intros e1 e2 E NE2. pose proof (refuses_prefix _ _ _ _ _ _ K E NE2) as X. revert X. change (RB e1 be false) with (inbuf e1 be). unfold s_create.
  rewrite run_flat_bind. destruct (run_flat (p_u host 2 0) (inbuf e1 be)) as [cnt b1]. rewrite run_flat_bind. destruct (run_flat (s_names host (Z.to_nat cnt)) b1) as [l b2].
  cbn [run_flat snd fst pok]. intro X. exists l. unfold rgood. now rewrite X.
Qed.

(** The first message of a client: its choice of method, and its credentials. *)
Theorem C76_validation : forall be find method cred, zlen method < 2 ^ 32 -> (forall v, cred = Some v -> sendable v) ->
  arrives be (fun host => c_validation host method cred) (server_reads 1 find) (eq (RValidate method (option_map received cred))).
Proof.
  intros be find method cred HM A.
  assert (exists o, typed_ok o /\ cred = option_map snd o) as (o & T & ->).
  { destruct cred as [v|]; [|exists None; split; constructor]. destruct (A v eq_refl) as (m & V & L). exists (Some (m, v)). split; [split; assumption|reflexivity]. }
  eapply arrives_program with (p := fun fuel host cache => s_handle host 1 find cache fuel)
    (e := (enc_u be 4 65536 ++ enc_u be 2 32767 ++ enc_u be 2 0) ++ enc_str be method ++ enc_typed be o).
  - reflexivity.
  - intros. apply s_handle_honest. discriminate.
  - reflexivity.
  - intros h pre. unfold c_validation. rewrite !to_wire_u_out, (puts_str be _ HM), (oputs_typed be o T). now rewrite <- !app_assoc.
  - intros fuel host cache F. destruct (gf_typed be host cache _ fuel T) as (r & R & VE); [rewrite !app_length in F; lia|].
    change (s_handle host 1 find cache fuel) with (s_validation fuel host cache). unfold s_validation. apply gf_take.
    + unfold zlen. rewrite !app_length, !enc_u_length. reflexivity.
    + intros _. eapply gf_bind; [apply gf_str; exact HM|]. apply gf_nil. eapply gf_dbind; [exact R|].
      replace (option_map received (option_map snd o)) with (value_or_empty r) by (rewrite VE; now destruct o as [(?, ?)|]). apply gf_if_good.
Qed.

(** A CREATE_CHANNEL with an empty name is neither answered nor refused, and names after the empty one are skipped
    (src/serverchan.cpp:279). *)
Theorem C76_empty_name_refuted : forall be find fuel host cache rest count cid, 1 <= count < 2 ^ 16 -> u32 cid ->
  server_reads 7 find be fuel host cache (enc_u be 2 count ++ enc_u be 4 cid ++ enc_str be [] ++ rest) = DOK (Took (RCreate [] true), cache).
Proof.
  intros be find fuel host cache rest count cid HC HI. unfold server_reads. change (s_handle host 7 find cache fuel) with (s_create host cache). change (RB ?b ?e false) with (inbuf b e).
  assert (K : gets_from be (s_create host cache) (enc_u be 2 count ++ enc_u be 4 cid ++ enc_str be []) (DOK (Took (RCreate [] true), cache))).
  { unfold s_create. eapply gf_bind; [apply gf_u; cbn; lia|]. apply gf_nil. apply (gf_bind be _ _ _ [] []); [|apply gf_good; apply gf_pok].
    destruct (Z.to_nat count) as [|n] eqn:E; [lia|]. cbn [s_names]. nums. apply gf_nil. eapply gf_bind; [apply gf_str; reflexivity|]. apply gf_good. apply gf_ret. }
  specialize (K rest). rewrite <- !app_assoc in K. now rewrite K.
Qed.

(** ** C77: replies *)

Ltac client k junk find := eapply arrives_program with (p := fun fuel host cache => c_handle host k junk find cache fuel);
  [reflexivity|intros; apply c_handle_honest|try reflexivity|..].
Lemma st_ok_ok : status_ok st_ok.
Proof. repeat split; cbn; auto; lia. Qed.
Lemma st_error_ok msg : text_ok msg -> status_ok (st_error msg).
Proof. intro T. split; [cbn; lia|]. split; [exact T|]. split; [reflexivity|]. cbn. tauto. Qed.
Definition enc_reply (be : bool) (ioid subcmd : Z) (s : status) : list Z := enc_u be 4 ioid ++ enc_u be 1 subcmd ++ enc_status be s.
Lemma puts_reply be ioid subcmd s : status_ok s -> puts be (fun h w => to_wire_status h s (to_wire_u h 1 subcmd (to_wire_u h 4 ioid w))) (enc_reply be ioid subcmd s).
Proof. intros S h pre. rewrite !to_wire_u_out, (puts_status be s S). unfold enc_reply. now rewrite <- !app_assoc. Qed.
Lemma gpr_reply k host junk find cache fuel : c_handle host (cmd_of k) junk find cache fuel = c_gpr fuel host junk k find cache.
Proof. destruct k; reflexivity. Qed.
Lemma gpr_reads k junk find be fuel host cache body : client_reads (cmd_of k) junk find be fuel host cache body = fst (run_flat (c_gpr fuel host junk k find cache) (inbuf body be)).
Proof. destruct k; reflexivity. Qed.
Lemma c_gpr_honest fuel host junk k find ts b : honest (c_gpr fuel host junk k find ts) b.
Proof. unfold c_gpr. honest_tac. Qed.

(** An error reply, whatever the operation: the client gets the text. *)
Theorem C77_error : forall be k junk find info ioid subcmd msg body, u32 ioid -> 0 <= subcmd < 256 -> text_ok msg -> msg <> [] -> find ioid = Some info ->
  arrives be (fun host => r_gpr host ioid subcmd msg body) (client_reads (cmd_of k) junk find) (eq (AGpr k ioid subcmd (st_error msg) None)).
Proof.
  intros be k junk find info ioid subcmd msg body HI HS T NE FI.
  assert (S : st_of msg = st_error msg) by (destruct msg; [congruence|reflexivity]).
  eapply arrives_program with (p := fun fuel host cache => c_gpr fuel host junk k find cache).
  - intros. apply gpr_reads.
  - intros. apply c_gpr_honest.
  - reflexivity.
  - intros h pre. unfold r_gpr. rewrite S. cbv zeta. rewrite (puts_reply be ioid subcmd _ (st_error_ok msg T) h pre). reflexivity.
  - intros fuel host cache F. unfold c_gpr, enc_reply. nums. apply gf_nil. eapply gf_bind; [apply gf_status; now apply st_error_ok|]. cbv zeta. apply gf_good.
    change (status_success (st_error msg)) with false. rewrite !andb_false_r. apply (gf_dbind be _ _ [] [] (None, cache)); [apply gf_pok|].
    apply gf_good. cbn [negb]. rewrite FI. apply gf_pok.
Qed.

(** The reply to INIT of GET and PUT: the client gets the type given to connect(). *)
Theorem C77_init : forall be k junk find info ioid m, k <> KRpc -> u32 ioid -> good_type m -> (levels m <= 21)%nat -> find ioid = Some info ->
  arrives be (fun host => r_gpr host ioid 8 [] (BType (flatten m))) (client_reads (cmd_of k) junk find)
    (fun r => exists v, r = AGpr k ioid 8 st_ok (Some v) /\ new_value m v).
Proof.
  intros be k junk find info ioid m NK HI G L FI.
  eapply arrives_program with (p := fun fuel host cache => c_gpr fuel host junk k find cache) (x := AGpr k ioid 8 st_ok (Some (fresh m))).
  - intros. apply gpr_reads.
  - intros. apply c_gpr_honest.
  - exists (fresh m). split; [reflexivity|now apply fresh_is_new].
  - intros h pre. unfold r_gpr. change (st_of []) with st_ok. cbv zeta. rewrite (puts_reply be ioid 8 _ st_ok_ok h pre). change (negb (status_success st_ok)) with false. cbv iota.
    rewrite (oputs_type be m G). unfold enc_reply. now rewrite <- !app_assoc.
  - intros fuel host cache F. unfold c_gpr. nums. eapply gf_bind; [exact (gf_status be host _ _ st_ok_ok)|]. cbv zeta. apply gf_good.
    change (sub 8 8) with true. change (status_success st_ok) with true. replace (is_rpc k) with false by (destruct k; [reflexivity|reflexivity|congruence]). cbn [negb andb].
    apply gf_nil. eapply gf_dbind; [apply gf_type; assumption|]. apply gf_good. cbn [negb]. rewrite FI. apply gf_pok.
Qed.

(** The reply to a GET, and to the GET before a PUT: the client gets a new Value of the type it was told, holding the fields
    which the server had marked, of those the client requested. *)
Theorem C77_get : forall be (put : bool) junk find fl p ioid m v mask, u32 ioid -> updatable m -> value_of m v -> mask_fits (flatten m) (Some mask) ->
  v_nodes p = flatten m -> find ioid = Some {| ri_proto := Some p; ri_fl := fl |} ->
  arrives be (fun host => r_gpr host ioid (if put then 64 else 0) [] (BValid v mask)) (client_reads (if put then 11 else 10) junk find)
    (fun r => exists v', r = AGpr (if put then KPut else KGet) ioid (if put then 64 else 0) st_ok (Some v') /\ copy_of_marked m v (Some mask) v').
Proof.
  intros be put junk find fl p ioid m v mask HI (G & MC & LN) V MF PN FI.
  destruct (valid_round be v m (fresh m) (Some mask) V (fresh_storage m G) MC LN MF) as (e & new & E & D & U).
  set (k := if put then KPut else KGet). replace (if put then 11 else 10) with (cmd_of k) by (destruct put; reflexivity).
  eapply arrives_program with (p := fun fuel host cache => c_gpr fuel host junk k find cache) (x := AGpr k ioid (if put then 64 else 0) st_ok (Some (Val (flatten m) new))).
  - intros. apply gpr_reads.
  - intros. apply c_gpr_honest.
  - eexists. split; [reflexivity|]. split; [reflexivity|]. exists (fresh m). split; [now apply fresh_is_new|exact U].
  - intros h pre. unfold r_gpr. change (st_of []) with st_ok. cbv zeta. rewrite (puts_reply be ioid _ _ st_ok_ok h pre). change (negb (status_success st_ok)) with false. cbv iota.
    rewrite E. unfold enc_reply. now rewrite <- !app_assoc.
  - intros fuel host cache F. unfold c_gpr. nums. eapply gf_bind; [apply gf_u1; destruct put; lia|]. eapply gf_bind; [exact (gf_status be host _ _ st_ok_ok)|]. cbv zeta. apply gf_good.
    replace (sub _ 8) with false by (destruct put; reflexivity). change (status_success st_ok) with true. replace (is_rpc k) with false by (destruct put; reflexivity).
    cbn [negb andb]. apply (gf_dbind be _ _ [] _ (None, cache)); [apply gf_pok|]. apply gf_good. cbn [negb]. rewrite FI.
    replace ((is_get k || is_put k && sub (if put then 64 else 0) 64) && true) with true by (destruct put; reflexivity). cbn [ri_proto]. rewrite PN, (fresh_new m G).
    apply gf_nil. eapply gf_dbind; [intro rest; apply D; rewrite !app_length in F; lia|]. apply gf_if_good.
Qed.

(** The reply to a PUT and to INIT of an RPC carry nothing; the reply to an RPC a Value with its type. *)
Theorem C77_put_rpc : forall be junk find info ioid res, u32 ioid -> (forall v, res = Some v -> sendable v) -> find ioid = Some info ->
  arrives be (fun host => r_gpr host ioid 0 [] BNone) (client_reads 11 junk find) (eq (AGpr KPut ioid 0 st_ok None)) /\
  arrives be (fun host => r_gpr host ioid 8 [] BNone) (client_reads 20 junk find) (eq (AGpr KRpc ioid 8 st_ok None)) /\
  arrives be (fun host => r_gpr host ioid 0 [] (BTyped res)) (client_reads 20 junk find) (eq (AGpr KRpc ioid 0 st_ok (option_map received res))).
Proof.
  intros be junk find info ioid res HI A FI. repeat apply conj.
  - eapply arrives_program with (p := fun fuel host cache => c_gpr fuel host junk KPut find cache); [reflexivity|intros; apply c_gpr_honest|reflexivity|..].
    + intros h pre. unfold r_gpr. change (st_of []) with st_ok. cbv zeta. rewrite (puts_reply be ioid 0 _ st_ok_ok h pre). reflexivity.
    + intros fuel host cache F. unfold c_gpr, enc_reply. nums. apply gf_nil. eapply gf_bind; [exact (gf_status be host _ _ st_ok_ok)|]. cbv zeta. apply gf_good.
      change (sub 0 8) with false. change (sub 0 64) with false. change (status_success st_ok) with true. cbn [negb andb is_rpc is_get is_put orb].
      apply (gf_dbind be _ _ [] [] (None, cache)); [apply gf_pok|]. apply gf_good. cbn [negb]. rewrite FI. apply gf_pok.
  - eapply arrives_program with (p := fun fuel host cache => c_gpr fuel host junk KRpc find cache); [reflexivity|intros; apply c_gpr_honest|reflexivity|..].
    + intros h pre. unfold r_gpr. change (st_of []) with st_ok. cbv zeta. rewrite (puts_reply be ioid 8 _ st_ok_ok h pre). reflexivity.
    + intros fuel host cache F. unfold c_gpr, enc_reply. nums. apply gf_nil. eapply gf_bind; [exact (gf_status be host _ _ st_ok_ok)|]. cbv zeta. apply gf_good.
      change (sub 8 8) with true. change (status_success st_ok) with true. cbn [negb andb is_rpc is_get is_put orb].
      apply (gf_dbind be _ _ [] [] (None, cache)); [apply gf_pok|]. apply gf_good. cbn [negb]. rewrite FI. apply gf_pok.
  - assert (exists o, typed_ok o /\ res = option_map snd o) as (o & T & ->).
    { destruct res as [v|]; [|exists None; split; constructor]. destruct (A v eq_refl) as (m & V & L). exists (Some (m, v)). split; [split; assumption|reflexivity]. }
    eapply arrives_program with (p := fun fuel host cache => c_gpr fuel host junk KRpc find cache); [reflexivity|intros; apply c_gpr_honest|reflexivity|..].
    + intros h pre. unfold r_gpr. change (st_of []) with st_ok. cbv zeta. rewrite (puts_reply be ioid 0 _ st_ok_ok h pre). change (negb (status_success st_ok)) with false. cbv iota.
      rewrite (oputs_typed be o T). unfold enc_reply. now rewrite <- !app_assoc.
    + intros fuel host cache F. destruct (gf_typed be host cache _ fuel T) as (r & R & VE); [rewrite !app_length in F; lia|].
      unfold c_gpr. nums. eapply gf_bind; [exact (gf_status be host _ _ st_ok_ok)|]. cbv zeta. apply gf_good.
      change (sub 0 8) with false. change (status_success st_ok) with true. cbn [negb andb is_rpc is_get is_put orb].
      apply gf_nil. eapply gf_dbind; [exact R|]. apply gf_good. cbn [negb fst snd]. rewrite FI.
      replace (option_map received (option_map snd o)) with (value_or_empty r) by (rewrite VE; now destruct o as [(?, ?)|]). apply gf_pok.
Qed.

(** Channels. *)
Theorem C77_channels : forall be junk find cid sid sts, u32 cid -> u32 sid -> status_ok sts ->
  arrives be (fun host w => OK (r_create host cid sid sts w)) (client_reads 7 junk find) (eq (ACreate cid sid sts)) /\
  arrives be (fun host w => OK (r_destroy_channel host sid cid w)) (client_reads 8 junk find) (eq (ADestroyChan sid cid)).
Proof.
  intros be junk find cid sid sts HC HS S. split.
  - client 7 junk find.
    + intros h pre. unfold r_create. rewrite (puts_ids be cid sid h pre), (puts_status be _ S). unfold enc_ids. now rewrite <- !app_assoc.
    + intros fuel host cache F. change (c_handle host 7 junk find cache fuel) with (c_created host (fst junk) cache). unfold c_created. nums.
      apply gf_nil. eapply gf_bind; [now apply gf_status|]. apply gf_if_good.
  - client 8 junk find.
    + intros h pre. unfold r_destroy_channel. now rewrite (puts_ids be sid cid h pre).
    + intros fuel host cache F. change (c_handle host 8 junk find cache fuel) with (c_destroyed host cache). unfold c_destroyed, enc_ids. nums. apply gf_nil. nums. apply gf_if_good.
Qed.
(** The type of a channel. *)
Theorem C77_get_field : forall be junk find ioid m msg, u32 ioid -> good_type m -> (levels m <= 21)%nat -> text_ok msg ->
  arrives be (fun host => r_get_field host ioid st_ok (Some (flatten m))) (client_reads 17 junk find)
    (fun r => exists v, r = AGetField ioid st_ok (Some v) /\ new_value m v) /\
  arrives be (fun host => r_get_field host ioid (st_error msg) None) (client_reads 17 junk find) (eq (AGetField ioid (st_error msg) None)).
Proof.
  intros be junk find ioid m msg HI G L T. split.
  - eapply arrives_program with (p := fun fuel host cache => c_handle host 17 junk find cache fuel) (x := AGetField ioid st_ok (Some (fresh m))).
    + reflexivity.
    + intros; apply c_handle_honest.
    + exists (fresh m). split; [reflexivity|now apply fresh_is_new].
    + intros h pre. unfold r_get_field. cbv zeta. rewrite to_wire_u_out, (puts_status be _ st_ok_ok), (oputs_type be m G). now rewrite <- !app_assoc.
    + intros fuel host cache F. change (c_handle host 17 junk find cache fuel) with (c_field host cache). unfold c_field. nums. eapply gf_bind; [exact (gf_status be host _ _ st_ok_ok)|].
      change (status_success st_ok) with true. cbv iota. apply gf_nil. eapply gf_dbind; [apply gf_type; assumption|]. apply gf_if_good.
  - client 17 junk find.
    + intros h pre. unfold r_get_field. cbv zeta. rewrite to_wire_u_out, (puts_status be _ (st_error_ok msg T)). now rewrite <- !app_assoc.
    + intros fuel host cache F. change (c_handle host 17 junk find cache fuel) with (c_field host cache). unfold c_field. nums. apply gf_nil. eapply gf_bind; [exact (gf_status be host _ _ (st_error_ok msg T))|].
      change (status_success (st_error msg)) with false. cbv iota. apply (gf_dbind be _ _ [] [] (None, cache)); [apply gf_pok|]. apply gf_if_good.
Qed.

(** Subscriptions. *)
Lemma arrives_monitor be find junk write e x (P : reply -> Prop) : P x -> oputs be write e ->
  (forall last fuel host cache, (length e < fuel)%nat -> gets_from be (c_mon_body last fuel host find cache) e (DOK (Took x, cache))) ->
  arrives be write (client_reads 13 junk find) P.
Proof.
  intros PX W G. exists e, x. split; [exact PX|]. split; [exact W|]. intros host fuel cache F.
  split.
  - change (client_reads 13 junk find be fuel host cache e) with (c_mon fuel host find cache (inbuf e be)). unfold c_mon. set (last := is_nil _).
    specialize (G last fuel host cache F []). rewrite app_nil_r in G. now rewrite G.
  - intros e1 e2 E NE y ts X. change (client_reads 13 junk find be fuel host cache e1) with (c_mon fuel host find cache (inbuf e1 be)) in X. unfold c_mon in X. set (last := is_nil _) in X.
    specialize (G last fuel host cache F []). rewrite app_nil_r in G. pose proof (refuses_prefix _ _ _ _ _ _ G E NE) as K.
    pose proof (c_mon_honest last fuel host find cache (inbuf e1 be) y ts X). congruence.
Qed.
Theorem C77_mon_init : forall be junk find info ioid m msg, u32 ioid -> good_type m -> (levels m <= 21)%nat -> text_ok msg -> find ioid = Some info ->
  arrives be (fun host => r_mon_init host ioid [] (Some (flatten m))) (client_reads 13 junk find)
    (fun r => exists v, r = AMon ioid 8 st_ok (Some v) false /\ new_value m v) /\
  forall nodes, nodes = None \/ msg <> [] ->
  arrives be (fun host => r_mon_init host ioid msg nodes) (client_reads 13 junk find) (eq (AMon ioid 8 (st_error msg) None false)).
Proof.
  intros be junk find info ioid m msg HI G L T FI. split; [|intros nodes NM].
  - eapply arrives_monitor with (x := AMon ioid 8 st_ok (Some (fresh m)) false) (e := enc_u be 4 ioid ++ enc_u be 1 8 ++ enc_status be st_ok ++ enc_type be m).
    + exists (fresh m). split; [reflexivity|now apply fresh_is_new].
    + intros h pre. unfold r_mon_init. cbv zeta. cbn [is_nil]. rewrite !to_wire_u_out, (puts_status be _ st_ok_ok), (oputs_type be m G). now rewrite <- !app_assoc.
    + intros last fuel host cache F. unfold c_mon_body. apply gf_nil. eapply gf_dbind.
      * unfold c_mon_head. nums. change (sub 8 8 || sub 8 16) with true. cbv iota. eapply gf_bind; [exact (gf_status be host _ _ st_ok_ok)|].
        change (sub 8 8 && status_success st_ok) with true. cbv iota. apply gf_nil. eapply gf_dbind; [apply gf_type; assumption|]. apply gf_pok.
      * cbv iota beta. cbn [fst snd]. apply gf_good. cbn [negb]. rewrite FI. change (status_success st_ok) with true. change (sub 8 8) with true. cbn [negb]. cbv iota. apply gf_pok.
  - eapply arrives_monitor with (x := AMon ioid 8 (st_error msg) None false) (e := enc_u be 4 ioid ++ enc_u be 1 8 ++ enc_status be (st_error msg)).
    + reflexivity.
    + intros h pre. unfold r_mon_init. cbv zeta.
      replace (match nodes with Some n => _ | None => _ end) with (OK (to_wire_status h (st_error msg) (to_wire_u h 1 8 (to_wire_u h 4 ioid (outbuf pre be))))).
      2:{ destruct nodes; [|reflexivity]. destruct NM as [NM|NM]; [discriminate|]. now destruct msg. }
      rewrite !to_wire_u_out, (puts_status be _ (st_error_ok msg T)). now rewrite <- !app_assoc.
    + intros last fuel host cache F. unfold c_mon_body. apply gf_nil. eapply gf_dbind.
      * unfold c_mon_head. nums. change (sub 8 8 || sub 8 16) with true. cbv iota. apply gf_nil. eapply gf_bind; [exact (gf_status be host _ _ (st_error_ok msg T))|].
        change (sub 8 8 && status_success (st_error msg)) with false. cbv iota. apply (gf_dbind be _ _ [] [] (None, cache)); [apply gf_pok|]. apply gf_pok.
      * cbv iota beta. cbn [fst snd]. apply gf_good. cbn [negb]. rewrite FI. change (status_success (st_error msg)) with false. cbn [negb]. cbv iota. apply gf_pok.
Qed.
Lemma gf_nomask be host : gets_from be (p_mask host bm_empty) (enc_u be 1 0) (bm_resize 0 bm_empty).
Proof.
  intro rest. replace (enc_u be 1 0) with [0] by now destruct be. rewrite p_mask_ok. unfold from_wire_mask.
  pose proof (from_wire_size_in host 0 false 0 rest be ltac:(lia)) as K. change (enc_size be 0) with [0] in K. cbn [app] in *. rewrite K. reflexivity.
Qed.
Theorem C77_mon_update : forall be junk find p ioid m v mask, u32 ioid -> updatable m -> value_of m v -> mask_fits (flatten m) (Some mask) ->
  v_nodes p = flatten m -> find ioid = Some {| ri_proto := Some p; ri_fl := true |} ->
  arrives be (fun host => r_mon_update host ioid v mask) (client_reads 13 junk find)
    (fun r => exists v', r = AMon ioid 0 st_ok (Some v') false /\ copy_of_marked m v (Some mask) v').
Proof.
  intros be junk find p ioid m v mask HI (G & MC & LN) V MF PN FI.
  destruct (valid_round be v m (fresh m) (Some mask) V (fresh_storage m G) MC LN MF) as (e & new & E & D & U).
  eapply arrives_monitor with (x := AMon ioid 0 st_ok (Some (Val (flatten m) new)) false) (e := (enc_u be 4 ioid ++ enc_u be 1 0) ++ e ++ enc_u be 1 0).
  - eexists. split; [reflexivity|]. split; [reflexivity|]. exists (fresh m). split; [now apply fresh_is_new|exact U].
  - intros h pre. unfold r_mon_update. rewrite !to_wire_u_out, E. cbn [obind]. rewrite to_wire_u_out. now rewrite <- !app_assoc.
  - intros last fuel host cache F. unfold c_mon_body. eapply gf_dbind.
    + unfold c_mon_head. nums. apply gf_nil. nums. change (sub 0 8 || sub 0 16) with false. change (sub 0 8) with false. cbn [andb]. cbv iota.
      apply (gf_bind be _ _ [] [] st_ok); [apply gf_ret|]. apply (gf_dbind be _ _ [] [] (None, cache)); [apply gf_pok|]. apply gf_pok.
    + cbv iota beta. cbn [fst snd]. apply gf_good. cbn [negb]. rewrite FI. change (status_success st_ok) with true. change (sub 0 8) with false. change (sub 0 16) with false. cbn [negb orb]. cbv iota.
      unfold c_update. cbn [ri_fl ri_proto negb]. cbv iota. rewrite PN, (fresh_new m G). eapply gf_dbind; [intro rest; apply D; rewrite !app_length in F; lia|].
      apply gf_nil. eapply gf_bind; [apply gf_nomask|]. apply gf_if_good.
Qed.
(** The end of a subscription. *)
Theorem C77_mon_finish : forall be junk find info ioid, u32 ioid -> find ioid = Some info ->
  arrives be (fun host w => OK (r_mon_finish host ioid w)) (client_reads 13 junk find) (eq (AMon ioid 16 st_ok None false)).
Proof.
  intros be junk find info ioid HI FI. set (e := enc_u be 4 ioid ++ enc_u be 1 16 ++ enc_status be st_ok).
  assert (H : forall host cache, gets_from be (c_mon_head host cache) e (DOK (ioid, 16, st_ok, None, cache))).
  { intros host cache. unfold c_mon_head, e. nums. change (sub 16 8 || sub 16 16) with true. cbv iota. apply gf_nil. eapply gf_bind; [exact (gf_status be host _ _ st_ok_ok)|].
    change (sub 16 8 && status_success st_ok) with false. cbv iota. apply (gf_dbind be _ _ [] [] (None, cache)); [apply gf_pok|]. apply gf_pok. }
  exists e, (AMon ioid 16 st_ok None false). split; [reflexivity|]. split.
  { intros h pre. unfold r_mon_finish, e. rewrite !to_wire_u_out, (puts_status be _ st_ok_ok). now rewrite <- !app_assoc. }
  intros host fuel cache F. specialize (H host cache []). rewrite app_nil_r in H. split.
  - change (client_reads 13 junk find be fuel host cache e) with (c_mon fuel host find cache (inbuf e be)). unfold c_mon. rewrite H. cbn [snd inbuf rd is_nil]. unfold c_mon_body.
    erewrite run_dbind by exact H. cbv iota beta. cbn [run_flat rgood rerr inbuf negb]. rewrite FI. reflexivity.
  - intros e1 e2 E NE y ts X. change (client_reads 13 junk find be fuel host cache e1) with (c_mon fuel host find cache (inbuf e1 be)) in X.
    pose proof (refuses_prefix _ _ _ _ _ _ H E NE) as K. unfold c_mon in X. set (last := is_nil _) in X. clearbody last. unfold c_mon_body, dbind in X. rewrite run_flat_bind in X.
    destruct (run_flat (c_mon_head host cache) (inbuf e1 be)) as [[((((i, s), st), d), t)| | |] b1]; cbn [snd] in K; cbn [run_flat fst] in X; try discriminate.
    unfold rgood in X. rewrite K in X. cbn in X. discriminate.
Qed.

(** ** Examples: the hypotheses are met *)
Example C76_satisfiable : sendable ex_value /\ updatable ex_type /\ value_of ex_type ex_value /\ mask_fits (flatten ex_type) (bm_init [1; 6] 7) /\
  u32 4294967295 /\ status_ok (st_error [110; 111]) /\ text_ok [110; 111].
Proof.
  split; [exists ex_type; split; [exact ex_value_ok|cbn; lia]|]. split; [split; [apply ex_value_ok|split; [reflexivity|reflexivity]]|]. split; [exact ex_value_ok|].
  split; [apply C14_satisfiable|]. split; [split; [discriminate|reflexivity]|]. assert (T : text_ok [110; 111]) by (split; [reflexivity|cbn; intuition discriminate]).
  split; [split; [cbn; lia|split; [exact T|split; [reflexivity|intros []]]]|exact T].
Qed.
(** GET of IOID 5 on SID 7, from a little endian client; an operation nobody knows; and one byte missing. *)
Example C76_example :
  server_reads 10 (fun i => if i =? 5 then OpTyped (flatten ex_type) else OpNone) false 20 true [] [7; 0; 0; 0; 5; 0; 0; 0; 0] = DOK (Took (RExec KGet 7 5 0 None), []) /\
  server_reads 10 (fun i => if i =? 5 then OpTyped (flatten ex_type) else OpNone) false 20 true [] [7; 0; 0; 0; 6; 0; 0; 0; 0] = DOK (Ignored, []) /\
  server_reads 10 (fun i => if i =? 5 then OpTyped (flatten ex_type) else OpNone) false 20 true [] [7; 0; 0; 0; 5; 0; 0; 0] = DOK (Closed, []).
Proof. repeat split; reflexivity. Qed.
(** A server which refuses with "no". *)
Example C77_example : forall info,
  client_reads 10 (0, st_ok) (fun i => if i =? 5 then Some info else None) true 20 true [] [0; 0; 0; 5; 8; 2; 2; 110; 111; 0]
  = DOK (Took (AGpr KGet 5 8 (st_error [110; 111]) None), []).
Proof. reflexivity. Qed.

Print Assumptions C76_init.
Print Assumptions C76_get.
Print Assumptions C76_put.
Print Assumptions C76_rpc.
Print Assumptions C76_subscribe.
Print Assumptions C76_monitor_control.
Print Assumptions C76_others.
Print Assumptions C76_create.
Print Assumptions C76_validation.
Print Assumptions C76_empty_name_refuted.
Print Assumptions C77_error.
Print Assumptions C77_init.
Print Assumptions C77_get.
Print Assumptions C77_put_rpc.
Print Assumptions C77_channels.
Print Assumptions C77_get_field.
Print Assumptions C77_mon_init.
Print Assumptions C77_mon_update.
Print Assumptions C77_mon_finish.
