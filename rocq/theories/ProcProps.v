(** C94: which records a PUT lets process. *)
From Coq Require Import String ZArith List Bool Lia.
From Verif Require Import Base BaseProofs CopyModel GroupModel OpsModel OpsSpec OpsProofs OpsProofs2 OpsProofs3 OpsProofs4 OpsProofs12 CopyProps OpsProps PutSpec PutProofs.
Import ListNotations.
Local Open Scope Z_scope.

(** A PUT of a group which succeeds makes these calls and no others: for each field which
    is sent and can be written, in the order of the group, one write, then the record
    processes if due; the record of a Proc field processes likewise; all between one lock
    and unlock of all records if atomic, else each between a lock and unlock of its own. *)
Theorem C94_group : forall fp w g opt cr force v s s',
  put_group fp w g opt cr force v s = (s', EOk tt) ->
  exists d, s_acts s' = s_acts s ++ d /\
    (atomic_of g opt = true -> exists m, d = ALock (records_of (g_fields g)) :: m ++ [AUnlock (records_of (g_fields g))] /\
        in_turn w v force (s_acts s ++ [ALock (records_of (g_fields g))]) (g_fields g) m) /\
    (atomic_of g opt = false -> in_turn_locked w v force (s_acts s) (g_fields g) d).
Proof.
  intros fp w g opt cr force v s s' E. destruct (good_group fp w g opt cr force v s s' tt E) as (d & Ed & H).
  exists d. split; [exact Ed|]. destruct (atomic_of g opt); split; intros; try discriminate; exact H.
Qed.
(** So does a PUT of a single PV. *)
Theorem C94_single : forall fp w c ch cr o notify v s s',
  (sc_block o = true -> sc_force o <> Unset) -> ca_link (w_attr w ch) = false ->
  single_put fp w c ch cr o notify v s = (s', EOk tt) ->
  exists ws p, s_acts s' = s_acts s ++ ALock [ch_record c] :: ws ++ p ++ [AUnlock [ch_record c]] /\
    ((exists x, ws = [AWrite ch x]) \/ (ws = [] /\ no_array (value_sent v))) /\
    processing w (s_acts s ++ [ALock [ch_record c]] ++ ws) c ch (sc_force o) p.
Proof.
  intros fp w c ch cr o notify v s s' Hb Hl E.
  assert (Hw : single_wait o = false).
  { unfold single_wait. destruct (sc_block o), (sc_force o); try reflexivity. exfalso. apply Hb; reflexivity. }
  destruct (good_single fp w c ch cr o notify v Hw Hl s s' tt E) as (d & Ed & ws & p & -> & A & B & P).
  exists ws, p. split; [exact Ed|split; [|exact P]].
  destruct A as [-> | A]; [right|left; exact A]. destruct B as [B | B]; [contradiction|]. split; [reflexivity|exact B].
Qed.
(** A PUT which waits (block, and the choice of processing left to the server): dbProcessNotify() has the
    value written, if it is sent, and the record process; it is called in any case. *)
Definition value_changed (v : sent) : Prop := exists m, In m (sn_marked v) /\ (is_prefix m [bs "value"] = true \/ is_prefix [bs "value"] m = true).
Definition notifies (r : nat) (notify : op unit -> op unit) : Prop :=
  forall wr s s', notify wr s = (s', EOk tt) -> exists s1, wr s = (s1, EOk tt) /\ s_acts s' = s_acts s1 ++ [AProcess r].
Theorem C94_waiting : forall fp w c ch cr notify v s s',
  notifies (ch_record c) notify -> single_put fp w c ch cr {| sc_block := true; sc_force := Unset |} notify v s = (s', EOk tt) ->
  (value_changed v -> (exists x, s_acts s' = s_acts s ++ [AWrite ch x; AProcess (ch_record c)] /\ wrote c (value_sent v) x) \/
     (no_array (value_sent v) /\ s_acts s' = s_acts s ++ [AProcess (ch_record c)])) /\
  (~ value_changed v -> s_acts s' = s_acts s ++ [AProcess (ch_record c)]).
Proof.
  intros fp w c ch cr notify v s s' N E. unfold single_put in E. change (single_wait _) with true in E. cbv iota in E. unfold seq in E. unfold bind in E.
  destruct (pre_processing w c ch s) as [s1 r1] eqn:E1. destruct r1 as [[]| |]; try discriminate E.
  destruct (field_pre_processing w (Some (ch, cr)) s1) as [s2 r2] eqn:E2. destruct r2 as [[]| |]; try discriminate E.
  assert (A1 : s_acts s1 = s_acts s).
  { destruct (good_post _ _ (fun _ d _ => d = []) (pre_post w c ch) ltac:(intros h d a u H; apply H) _ _ _ E1) as (d & D & ->). now rewrite app_nil_r in D. }
  assert (A2 : s_acts s2 = s_acts s).
  { destruct (good_post _ _ (fun _ d _ => d = []) (field_pre_post w (Some (ch, cr))) ltac:(intros h d a u H; apply H) _ _ _ E2) as (d & D & ->). rewrite app_nil_r in D. congruence. }
  destruct (N _ _ _ E) as (s3 & W & A3).
  assert (VC : single_request v = PutProcess <-> value_changed v).
  { unfold single_request, value_changed. destruct (existsb _ _) eqn:X; split; intro H; try discriminate H; auto.
    - apply existsb_exists in X. destruct X as (m & M & X). exists m. split; [exact M|]. now apply orb_true_iff.
    - destruct H as (m & M & H). assert (Y : existsb (fun m => is_prefix m [bs "value"] || is_prefix [bs "value"] m) (sn_marked v) = true); [|congruence].
      apply existsb_exists. exists m. split; [exact M|now apply orb_true_iff]. }
  split.
  - intro H. apply VC in H. rewrite H in W. destruct (good_ioc fp w MScalar None c ch v [] _ _ _ W) as (d & D & P & Q). rewrite A2 in D. rewrite A3, D, <- app_assoc.
    destruct P as [-> | (x & -> & P)].
    + right. destruct Q as [(x & Q)|Q]; [discriminate|]. split; [exact Q|reflexivity].
    + left. exists x. split; [reflexivity|exact P].
  - intro H. destruct (single_request v) eqn:X; [exfalso; apply H, VC; reflexivity|]. cbn in W. injection W as <-. now rewrite A3, A2.
Qed.
(** process=false: no record processes, except for a PUT to its field PROC. *)
Theorem C94_off : forall fp w g opt cr v s s',
  (forall f c, In f (g_fields g) -> cf_chan f = Some c -> ca_proc (w_attr w (chan_name f)) = false) ->
  put_group fp w g opt cr Off v s = (s', EOk tt) ->
  exists d, s_acts s' = s_acts s ++ d /\ Forall (fun a => ~ processes a) d.
Proof.
  intros fp w g opt cr v s s' Hp E. destruct (C94_group _ _ _ _ _ _ _ _ _ E) as (d & Ed & A & B).
  exists d. split; [exact Ed|]. destruct (atomic_of g opt).
  - destruct (A eq_refl) as (m & -> & R). constructor; [intros []|]. apply Forall_app. split; [apply (turn_off w v _ _ _ Hp R)|].
    constructor; [intros []|constructor].
  - apply (turn_locked_off w v _ _ _ Hp (B eq_refl)).
Qed.
(** The option: true and false, as text or as a bool; anything else leaves the choice. *)
Theorem C94_option : forall o,
  (force_flag o = On <-> o = SLeaf (PStr (bs "true")) \/ o = SLeaf (PBool true)) /\
  (force_flag o = Off <-> o = SLeaf (PStr (bs "false")) \/ o = SLeaf (PBool false)).
Proof.
  intros o. destruct o as [p | |]; try (cbn; split; split; [discriminate|intros [H | H]; discriminate|discriminate|intros [H | H]; discriminate]).
  destruct p as [| | | |b|t| |];
    try (cbn; split; split; [discriminate|intros [H | H]; discriminate|discriminate|intros [H | H]; discriminate]).
  - destruct b; cbn; split; split; try discriminate; auto; intros [H | H]; discriminate.
  - unfold force_flag. destruct (str_eqb t (bs "true")) eqn:E1.
    + apply str_eqb_eq in E1. subst. split; split; auto; [discriminate|intros [H | H]; discriminate].
    + apply str_eqb_neq in E1. destruct (str_eqb t (bs "false")) eqn:E2.
      * apply str_eqb_eq in E2. subst. split; split; auto; [discriminate|intros [H | H]; discriminate].
      * apply str_eqb_neq in E2. split; split; try discriminate; intros [H | H]; try discriminate; congruence.
Qed.
(** A client which asks to wait for the record (block) and for it to process (process=true)
    does not wait: the PUT ends with the request to process. *)
Theorem C94_block_refuted : forall fp w c ch cr notify v s,
  single_put fp w c ch cr {| sc_block := true; sc_force := On |} notify v s =
  single_put fp w c ch cr {| sc_block := false; sc_force := On |} notify v s.
Proof. reflexivity. Qed.
Example C94_example : exists g s' v, o_group true [("a", o_field "A" "" MPlain 2); ("p", o_field "B" "" MProc 1); ("s", o_field "S" "" MPlain 0)]%string = JOk g /\
  v = o_sent [([bs "a"], 1)] /\ atomic_of g None = true /\
  put_group no_fpu (o_world (fun _ => true)) g None o_creds Unset v s0 = (s', EOk tt) /\
  s_acts s' = [ALock [2%nat; 1%nat; 0%nat]; AProcess 1; AWrite (bs "A") (WNum DDouble 1); AProcess 0; AUnlock [2%nat; 1%nat; 0%nat]].
Proof. eexists. eexists. eexists. split; [vm_compute; reflexivity|]. split; [reflexivity|]. split; [reflexivity|]. split; [vm_compute; reflexivity|]. vm_compute. reflexivity. Qed.
Example C94_example_off : exists g s' v, o_group false [("a", o_field "A" "" MPlain 2); ("s", o_field "S" "" MPlain 0)]%string = JOk g /\
  v = o_sent [([bs "a"], 1)] /\
  (forall f c, In f (g_fields g) -> cf_chan f = Some c -> ca_proc (w_attr (o_world (fun _ => true)) (chan_name f)) = false) /\
  put_group no_fpu (o_world (fun _ => true)) g None o_creds Off v s0 = (s', EOk tt) /\
  s_acts s' = [ALock [2%nat]; AUnlock [2%nat]; ALock [0%nat]; AWrite (bs "A") (WNum DDouble 1); AUnlock [0%nat]].
Proof. eexists. eexists. eexists. split; [vm_compute; reflexivity|]. split; [reflexivity|]. split; [reflexivity|]. split; [vm_compute; reflexivity|]. vm_compute. reflexivity. Qed.
Example C94_example_single : exists s', ca_link (w_attr (o_world (fun _ => true)) (bs "B")) = false /\
  single_put no_fpu (o_world (fun _ => true)) (o_chan 1 DLong 1) (bs "B") o_creds {| sc_block := true; sc_force := On |}
    (fun x => x) (o_sent [([bs "value"], 5)]) s0 = (s', EOk tt) /\
  s_acts s' = [ALock [1%nat]; AWrite (bs "B") (WNum DLong 5); AProcess 1; AUnlock [1%nat]].
Proof. eexists. split; [reflexivity|split; [vm_compute; reflexivity|reflexivity]]. Qed.
Print Assumptions C94_group.
Print Assumptions C94_single.
Print Assumptions C94_off.
Print Assumptions C94_option.
Print Assumptions C94_block_refuted.
(** A waiting PUT of the value, and one of nothing. *)
Example C94_example_waiting : exists c s1 s2, let notify := fun wr => seq wr (call (AProcess (ch_record c)) (fun _ => Some tt)) in notifies (ch_record c) notify /\
  value_changed (o_sent [([bs "value"], 1)]) /\ ~ value_changed (o_sent []) /\
  single_put no_fpu (o_world (fun _ => true)) c (bs "A") o_creds {| sc_block := true; sc_force := Unset |} notify (o_sent [([bs "value"], 1)]) s0 = (s1, EOk tt) /\
  s_acts s1 = [AWrite (bs "A") (WNum DDouble 1); AProcess (ch_record c)] /\
  single_put no_fpu (o_world (fun _ => true)) c (bs "A") o_creds {| sc_block := true; sc_force := Unset |} notify (o_sent []) s0 = (s2, EOk tt) /\
  s_acts s2 = [AProcess (ch_record c)].
Proof.
  assert (NT : forall r, notifies r (fun wr => seq wr (call (AProcess r) (fun _ => Some tt)))).
  { intros r wr s s' E. unfold seq, bind in E. destruct (wr s) as [s1 r1] eqn:W. destruct r1 as [[]| |]; try discriminate E. exists s1. split; [reflexivity|]. unfold call in E. injection E as <-. reflexivity. }
  exists (o_chan 0 DDouble 1). eexists. eexists. split; [apply NT|]. split; [exists [bs "value"]; split; [now left|now left]|]. split; [intros (m & [] & _)|].
  split; [vm_compute; reflexivity|]. split; [vm_compute; reflexivity|]. split; vm_compute; reflexivity.
Qed.

Print Assumptions C94_waiting.
