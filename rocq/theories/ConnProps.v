(** Properties of the receive side of a connection (C23, C24). *)
From Coq Require Import ZArith List Bool Lia ZifyBool ZifyNat.
From Verif Require Import Base BaseProofs WireModel WireSpec WireProofs ConnModel ConnSpec ConnProofs ConnFrameProofs.
Import ListNotations.
Local Open Scope Z_scope.

(** [received ... bs]: what a new connection made of the reads [bs], one after the
    other.  [handle] is the behaviour of all message handlers, [send] the byte
    order this side sends in, [h] the state of the handlers.  The result: the
    connection, the state of the handlers, and the messages handed to them. *)
Definition received {H} (handle : H -> bool -> msg -> option H) (is_client : bool) (readahead : Z) (host send : bool) (h : H) (bs : list (list Z)) :=
  feeds H handle is_client readahead host (new_link readahead send) h bs.
Definition wanted (ms : list msg) : list msg := filter (fun m => handled (m_cmd m)) ms.
Definition delivered {H} (r : link * H * list msg) : list msg := snd r.
Definition still_up {H} (r : link * H * list msg) : bool := l_up (fst (fst r)).

Lemma known_handled c : known c = handled c.
Proof. unfold known, handled. cbn [existsb]. rewrite orb_false_r. destruct (1 <=? c) eqn:A, (c <=? 21) eqn:B; try lia. Qed.
Lemma wanted_known ms : wanted ms = filter (fun m => known (m_cmd m)) ms.
Proof. unfold wanted. apply filter_ext. intros m. symmetry. apply known_handled. Qed.

(** ** C23: reads *)

(** The reads may be cut in any way. *)
Theorem C23_reads H handle is_client readahead host send (h : H) bs bs' :
  concat bs = concat bs' -> received handle is_client readahead host send h bs = received handle is_client readahead host send h bs'.
Proof. intros E. unfold received. rewrite !feeds_new, E. reflexivity. Qed.
(** After any reads, the connection waits for bytes with reading enabled, unless the message
    awaited has a body of 2^32-8 bytes or more. *)
Theorem C23_reading H handle is_client readahead host send (h : H) bs :
  let c := fst (fst (received handle is_client readahead host send h bs)) in
  8 <= readahead -> l_up c = true ->
  zlen (l_rx c) < l_high c \/ (8 <= zlen (l_rx c) /\ 2 ^ 32 - 8 <= length_of host (flag flag_MSB (nth 2 (l_rx c) 0)) c).
Proof.
  intros c RA U. unfold received in c. destruct (feeds _ _ _ _ _ _ _ _) as [[c1 h1] o1] eqn:E. cbn in c. subst c. eapply feeds_high; eassumption.
Qed.
(** The start of a message is not delivered, and does not change what was delivered before it. *)
Theorem C23_incomplete H handle is_client readahead host send (h : H) fs f p q bs bs' :
  Forall ok_frame fs -> ok_frame f -> frame_bytes is_client f = p ++ q -> q <> [] ->
  concat bs = stream is_client fs -> concat bs' = stream is_client fs ++ p ->
  delivered (received handle is_client readahead host send h bs') = delivered (received handle is_client readahead host send h bs) /\
  still_up (received handle is_client readahead host send h bs') = still_up (received handle is_client readahead host send h bs).
Proof.
  intros O OF E NE B B'. unfold received. rewrite !feeds_new, B, B'. rewrite <- (app_nil_r (stream is_client fs)) at 2 4.
  rewrite !bev_frames by (reflexivity || assumption). destruct (frun _ _ _ _ _) as [[c1 h1] o1]. destruct (l_up c1) eqn:U; [|split; reflexivity].
  destruct (bev_part H handle is_client readahead host f p q c1 h1 U OF E NE) as (c2 & R2 & U2). rewrite R2.
  rewrite (bev_turn H handle is_client readahead host (with_rx [] c1)). change (l_up (with_rx [] c1)) with (l_up c1). rewrite U. unfold delivered, still_up. cbn. rewrite ?U2, ?U. split; reflexivity.
Qed.
(** With such a long message reading stops as soon as [readahead] bytes were received: the message is
    never delivered, and nothing after it. *)
Theorem C23_huge_stalls H handle readahead host send (h : H) tail :
  8 <= readahead < 2 ^ 32 -> zlen tail = readahead - 8 ->
  let r := received handle false readahead host send h [[202; 2; 128; 2; 255; 255; 255; 248]; tail] in
  still_up r = true /\ delivered r = [] /\ l_high (fst (fst r)) = readahead /\ zlen (l_rx (fst (fst r))) = readahead.
Proof.
  intros RA L. cbv zeta. unfold received. rewrite feeds_new. cbn [concat app]. rewrite app_nil_r.
  set (c0 := with_rx (202 :: 2 :: 128 :: 2 :: 255 :: 255 :: 255 :: 248 :: tail) (new_link readahead send)). set (r := bev_read _ _ _ _ _ _ _).
  assert (LN : len_of host c0 = 4294967288) by (destruct host; reflexivity).
  assert (ZL : zlen (l_rx c0) = readahead). { unfold c0. cbn [with_rx l_rx]. rewrite zl in *. cbn [length]. lia. }
  assert (T : turn H handle false readahead host c0 h = Wait H (mark 0 readahead (repeer true 2 c0))).
  { apply turn_wait. right. split; [|split].
    - split; [rewrite zl in ZL; lia|]. split; reflexivity.
    - rewrite LN. lia.
    - rewrite LN. change (low_of 4294967288) with 0. unfold high_of. replace (0 <? 2 ^ 64 - 1 - readahead) with true by lia. reflexivity. }
  assert (R : r = (mark 0 readahead (repeer true 2 c0), h, [])). { unfold r; rewrite bev_turn. change (l_up c0) with true. cbv iota. rewrite T. reflexivity. }
  rewrite R. unfold still_up, delivered. cbn [fst snd]. split; [reflexivity|]. split; [reflexivity|]. split; [reflexivity|]. exact ZL.
Qed.

(** ** C24: segments *)

(** Of a stream of frames which makes up messages, exactly these are delivered, in this order, each
    with the concatenation of its segments; if a handler ends the connection then a start of them. *)
Theorem C24_delivered H handle is_client readahead host send (h : H) fs ms bs :
  Forall ok_frame fs -> made_of (apps fs) ms -> concat bs = stream is_client fs ->
  let r := received handle is_client readahead host send h bs in
  starts (delivered r) (wanted ms) /\ (still_up r = true -> delivered r = wanted ms) /\ ((forall h b m, handle h b m <> None) -> still_up r = true).
Proof.
  intros O M E. cbv zeta. rewrite ?wanted_known. unfold received. rewrite feeds_new, E, <- (app_nil_r (stream is_client fs)). rewrite bev_frames by (reflexivity || assumption).
  pose proof (frun_made H handle _ _ M fs (new_link readahead send) h eq_refl (idle_new readahead send)) as T.
  destruct (frun _ _ _ _ _) as [[c1 h1] o1]. destruct T as (S & U & V). destruct (l_up c1) eqn:U1.
  - rewrite (bev_turn H handle is_client readahead host (with_rx [] c1)). change (l_up (with_rx [] c1)) with (l_up c1). rewrite U1. cbn. unfold delivered, still_up. cbn. rewrite app_nil_r.
    split; [exact S|]. split; [intros _; exact (proj1 (U eq_refl))|]. intros _. exact U1.
  - unfold delivered, still_up. cbn. split; [exact S|]. split; [congruence|]. intros X. specialize (V X). congruence.
Qed.
(** A segment which continues nothing ends the connection; nothing of it, or after it, is delivered. *)
Theorem C24_out_of_place H handle is_client readahead host send (h : H) fs ms f rest bs :
  Forall ok_frame fs -> made_of (apps fs) ms -> ok_frame f -> out_of_place f ->
  concat bs = stream is_client (fs ++ [f]) ++ rest ->
  let r := received handle is_client readahead host send h bs in still_up r = false /\ starts (delivered r) (wanted ms).
Proof.
  intros O M OF N E. cbv zeta. rewrite ?wanted_known. unfold received. rewrite feeds_new, E.
  rewrite bev_frames by (reflexivity || (apply Forall_app; auto)).
  destruct (frun_then H handle _ ms fs [f] (new_link readahead send) h M eq_refl (idle_new readahead send)) as (c' & h' & o & R & D & S).
  { intros c1 h1 I. exact (frun_out H handle [] f [] c1 h1 (Forall_nil _) N I). }
  rewrite R, D. unfold still_up, delivered. cbn. auto.
Qed.
(** So does anything but a continuation of the same command, after a first segment. *)
Theorem C24_interrupted H handle is_client readahead host send (h : H) fs ms op cmd b f rest bs :
  Forall ok_frame fs -> made_of (apps fs) ms -> Forall ok_frame op -> opened cmd (apps op) b -> ok_frame f -> interrupts cmd f ->
  concat bs = stream is_client (fs ++ op ++ [f]) ++ rest ->
  let r := received handle is_client readahead host send h bs in still_up r = false /\ starts (delivered r) (wanted ms).
Proof.
  intros O M OO OP OF N E. cbv zeta. rewrite ?wanted_known. unfold received. rewrite feeds_new, E.
  rewrite bev_frames by (reflexivity || (apply Forall_app; split; [|apply Forall_app]; auto)).
  destruct (frun_then H handle _ ms fs (op ++ [f]) (new_link readahead send) h M eq_refl (idle_new readahead send)) as (c' & h' & o & R & D & S).
  { intros c1 h1 I. exact (frun_inter H handle cmd _ b OP op f [] c1 h1 eq_refl N I). }
  rewrite R, D. unfold still_up, delivered. cbn. auto.
Qed.
(** Anything which is not a message at all does as well: wrong first byte, version 0, or the direction bit of this side. *)
Theorem C24_not_a_message H handle is_client readahead host send (h : H) fs ms head rest bs :
  Forall ok_frame fs -> made_of (apps fs) ms -> (8 <= length head)%nat ->
  (nth 0 head 0 <> 202 \/ nth 1 head 0 = 0 \/ flag 64 (nth 2 head 0) <> is_client) ->
  concat bs = stream is_client fs ++ head ++ rest ->
  let r := received handle is_client readahead host send h bs in still_up r = false /\ starts (delivered r) (wanted ms).
Proof.
  intros O M L N E. cbv zeta. rewrite ?wanted_known. unfold received. rewrite feeds_new, E. rewrite bev_frames by (reflexivity || assumption).
  pose proof (frun_made H handle _ _ M fs (new_link readahead send) h eq_refl (idle_new readahead send)) as T.
  destruct (frun _ _ _ _ _) as [[c1 h1] o1]. destruct T as (S & U & V). destruct (l_up c1) eqn:U1.
  - rewrite (bev_turn H handle is_client readahead host (with_rx (head ++ rest) c1)). change (l_up (with_rx (head ++ rest) c1)) with (l_up c1). rewrite U1.
    assert (X : turn H handle is_client readahead host (with_rx (head ++ rest) c1) h1 = Next H (closed (with_rx (head ++ rest) c1)) h1 []).
    { unfold turn. assert (LL : (zlen (l_rx (with_rx (head ++ rest) c1)) <? 8) = false) by (cbn [with_rx l_rx]; rewrite zl, app_length; lia). rewrite LL. cbn zeta.
      unfold byte. cbn [with_rx l_rx]. rewrite !app_nth1 by lia. change flag_Server with 64.
      assert (Y : (negb (nth 0 head 0 =? 202) || (nth 1 head 0 =? 0) || xorb is_client (flag 64 (nth 2 head 0))) = true).
      { destruct N as [N|[N|N]].
        - apply Z.eqb_neq in N. rewrite N. reflexivity.
        - rewrite N. cbn. rewrite orb_true_r. reflexivity.
        - destruct is_client, (flag 64 (nth 2 head 0)); try congruence; rewrite !orb_true_r; reflexivity. }
      rewrite Y. reflexivity. }
    rewrite X. rewrite bev_turn. cbn [closed l_up]. unfold still_up, delivered. cbn [fst snd]. rewrite !app_nil_r. split; [reflexivity|exact S].
  - unfold still_up, delivered. cbn. auto.
Qed.
(** What one side sends as a message, the other delivers as this message. *)
Theorem C24_sent H handle is_client readahead hostS host be send (h : H) cmds bs :
  Forall (fun x => zlen (snd x) < 2 ^ 32) cmds ->
  concat bs = concat (map (fun x => enqueue hostS (negb is_client) be (fst x) (snd x)) cmds) ->
  (forall h b m, handle h b m <> None) ->
  delivered (received handle is_client readahead host send h bs) =
  wanted (map (fun x => {| m_cmd := fst x; m_be := be; m_ver := 2; m_body := snd x |}) cmds).
Proof.
  intros O E HN. set (fs := map (fun x => App 2 be Whole (fst x) (snd x)) cmds).
  assert (OK : Forall ok_frame fs). { unfold fs. clear -O. induction O as [|x l X O IH]; cbn [map]; constructor; auto. split; [discriminate|exact X]. }
  assert (ST : concat bs = stream is_client fs).
  { rewrite E. unfold fs, stream. rewrite map_map. f_equal. apply map_ext_in. intros x X. rewrite Forall_forall in O. specialize (O x X).
    unfold enqueue. change (WB [] None be false) with (outbuf [] be). unfold to_wire_header. rewrite wensure_out. cbn [negb h_flags h_cmd h_len].
    rewrite wpush_out, to_wire_u_out. cbn [outbuf wd app frame_bytes]. pose proof (zlen_nonneg (snd x)).
    rewrite u32_enc by lia. rewrite u_cast_id by (cbn; lia). destruct is_client, be; reflexivity. }
  assert (M : made_of (apps fs) (map (fun x => {| m_cmd := fst x; m_be := be; m_ver := 2; m_body := snd x |}) cmds)).
  { unfold fs. clear. induction cmds as [|x l IH]; cbn; constructor. exact IH. }
  destruct (C24_delivered H handle is_client readahead host send h fs _ bs OK M ST) as (_ & A & B). exact (A (B HN)).
Qed.

(** a stream of a message in three segments with control messages in between, and a whole one, in reads of 7 bytes *)
Fixpoint cut (n : nat) (fuel : nat) (l : list Z) : list (list Z) :=
  match fuel, l with S f, _ :: _ => firstn n l :: cut n f (skipn n l) | _, _ => [] end.
Definition ex_frames : list frame :=
  [Control 2 2 true 0; App 2 true First 10 [1; 2; 3]; App 2 false Middle 10 []; Control 2 0 true 5; App 2 false Middle 10 [4]; App 2 true Last 10 [5; 6];
   App 1 false Whole 13 [7; 8]; App 2 true Whole 14 [1]].
Definition ex_msgs : list msg :=
  [{| m_cmd := 10; m_be := true; m_ver := 2; m_body := [1; 2; 3; 4; 5; 6] |}; {| m_cmd := 13; m_be := false; m_ver := 1; m_body := [7; 8] |};
   {| m_cmd := 14; m_be := true; m_ver := 2; m_body := [1] |}].
Definition keep : list msg -> bool -> msg -> option (list msg) := fun h _ m => Some (h ++ [m]).
Example C24_ex :
  made_of (apps ex_frames) ex_msgs /\ concat (cut 7 100 (stream true ex_frames)) = stream true ex_frames /\ length (cut 7 100 (stream true ex_frames)) = 11%nat /\
  received keep true 65536 false true [] (cut 7 100 (stream true ex_frames)) =
  ({| l_up := true; l_send := true; l_peer := true; l_ver := 2; l_expect := false; l_segcmd := 14; l_seg := []; l_rx := []; l_low := 8; l_high := 65536 |},
   firstn 2 ex_msgs, firstn 2 ex_msgs).
Proof.
  split. { apply (made_parts 2 true 10 [App 2 true First 10 [1; 2; 3]; App 2 false Middle 10 []; App 2 false Middle 10 [4]] [1; 2; 3; 4] [5; 6]).
           - apply (opened_intro 10 2 true [1; 2; 3] [App 2 false Middle 10 []; App 2 false Middle 10 [4]]). repeat constructor.
           - repeat constructor. }
  vm_compute. repeat split; reflexivity.
Qed.
Example C24_ex_ok : Forall ok_frame ex_frames.
Proof. repeat constructor; cbn; lia. Qed.
Example C24_ex_bad :
  still_up (received keep true 65536 false true [] [stream true [App 2 true Whole 2 []; App 2 true Last 2 []; App 2 true Whole 2 []]]) = false /\
  still_up (received keep true 65536 false true [] [stream true [App 2 true First 2 []; App 2 true Last 3 []]]) = false /\
  still_up (received keep true 65536 false true [] [stream false [App 2 true Whole 2 []]]) = false.
Proof. vm_compute. repeat split; reflexivity. Qed.
Example C23_ex :
  concat [[202; 2]; [128; 2; 0; 0; 0; 1]; [5]] = concat [[202; 2; 128; 2; 0; 0; 0; 1; 5]] /\
  delivered (received keep false 65536 false true [] [[202; 2]; [128; 2; 0; 0; 0; 1]; [5]]) = [{| m_cmd := 2; m_be := true; m_ver := 2; m_body := [5] |}].
Proof. vm_compute. split; reflexivity. Qed.

Print Assumptions C23_reads.
Print Assumptions C23_reading.
Print Assumptions C23_incomplete.
Print Assumptions C23_huge_stalls.
Print Assumptions C24_delivered.
Print Assumptions C24_out_of_place.
Print Assumptions C24_interrupted.
Print Assumptions C24_not_a_message.
Print Assumptions C24_sent.
