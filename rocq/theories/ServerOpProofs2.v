(** More proofs about the operations and channels of a server connection. *)
From Coq Require Import List Bool Arith NArith Lia ZifyBool ZifyNat ZifyN.
From Verif Require Import ServerOpModel ServerOpSpec ServerOpProofs.
Import ListNotations.

(** ** Closing the connection *)
Definition calls (o : output) : bool :=
  match o with Down => false | _ => true end.
(** A step closes the connection, or leaves it as it is. *)
Definition steady (s : conn) (r : conn * list output) : Prop :=
  (up (fst r) = up s /\ forallb calls (snd r) = true) \/ r = conn_cleanup s.
Lemma quiet_calls : forall l, forallb quiet l = true -> forallb calls l = true.
Proof.
  induction l as [|x l IH]; [reflexivity|]. cbn. intros H. apply andb_prop in H as (A & B). rewrite (IH B), andb_true_r. destruct x; try discriminate; reflexivity.
Qed.
Lemma steady_shr : forall s s' l, shr s s' -> forallb quiet l = true -> steady s (s', l).
Proof. intros s s' l H Q. left. split; [apply (h_up _ _ H)|apply quiet_calls; exact Q]. Qed.
Lemma gpr_frame : forall j h v s, up (fst (gpr_reply j h v s)) = up s /\ forallb calls (snd (gpr_reply j h v s)) = true.
Proof.
  intros. unfold gpr_reply. destruct (nth_error (objs s) j) as [o|]; [|auto]. destruct (_ && _); [|auto].
  destruct (o_st o); auto; destruct v as [r|]; auto. destruct (reply_ok o r); auto.
Qed.
Lemma info_frame : forall j ok s, up (fst (info_reply j ok s)) = up s /\ forallb calls (snd (info_reply j ok s)) = true.
Proof.
  intros. unfold info_reply. destruct (nth_error (objs s) j) as [o|]; [|auto]. destruct (_ && _); [|auto].
  destruct (o_st o); auto. cbn [fst snd]. split; [|reflexivity].
  rewrite (h_up _ _ (shr_chan_forget _ _ _)). reflexivity.
Qed.
Lemma up_add : forall o s, up (add_op o s) = up s.
Proof. intros. unfold add_op. cbn zeta. destruct (nth_error (chans s) (o_chan o)); reflexivity. Qed.
Lemma steady_step : forall s e, steady s (step s e).
Proof.
  intros s e. assert (Z : steady s (s, [])) by (left; auto).
  assert (G : forall j h v, steady s (gpr_reply j h v s)) by (intros; left; apply gpr_frame).
  destruct e; cbn [step].
  - destruct (up s) eqn:U; [|exact Z]. left. unfold create. destruct (N.eqb _ _); [auto|].
    destruct (fresh _ _) as [[sid nx]|]; [|auto]. destruct h as [[[a b] c]|]; auto.
  - destruct (up s); [|exact Z]. unfold destroy_chan. destruct (get sid (by_sid s)) as [c|]; [|exact Z].
    pose proof (shr_chan_cleanup c s) as SH. pose proof (quiet_chan_cleanup c s) as Q. destruct (chan_cleanup c s) as [s1 o].
    left. cbn [fst snd] in *. split; [apply (h_up _ _ SH)|]. rewrite forallb_app, (quiet_calls _ Q). reflexivity.
  - unfold close_chan. destruct (chan_alive s c); [|exact Z]. destruct (nth_error (chans s) c) as [ch|]; [|exact Z].
    pose proof (shr_chan_cleanup c s) as SH. pose proof (quiet_chan_cleanup c s) as Q. destruct (chan_cleanup c s) as [s1 o].
    left. cbn [fst snd] in *. split; [apply (h_up _ _ SH)|]. rewrite forallb_app, (quiet_calls _ Q), andb_true_r. destruct (up s && c_open ch); reflexivity.
  - assert (I : up s = true -> steady s (init k sid ioid s)).
    { intros U. unfold init. destruct (get sid (by_sid s)) as [c|]; [|right; reflexivity].
      destruct (get ioid (by_ioid s)); [right; reflexivity|]. left. cbn zeta. destruct k; cbn [fst snd]; try (split; [apply up_add|reflexivity]).
      pose proof (gpr_frame (length (objs s)) 0 (Some NoValue) (add_op (new_op Rpc Creating c ioid) s)) as K.
      destruct (gpr_reply _ _ _ _) as [s2 o]. cbn [fst snd] in *. destruct K as (K1 & K2). rewrite K1, up_add. auto. }
    destruct k; try exact Z; (destruct (up s); [apply I; reflexivity|exact Z]).
  - destruct (is_info i s); [exact Z|]. unfold connect. destruct (nth_error (objs s) i) as [o|]; [|exact Z].
    destruct (alive s i o); [|exact Z]. destruct (o_st o); try exact Z.
    assert (A : steady s (set_op i (with_typed o) s, [])) by (left; auto).
    assert (B : steady s (gpr_reply i 0 (Some NoValue) (set_op i (with_typed o) s))) by (left; exact (gpr_frame i 0 (Some NoValue) (set_op i (with_typed o) s))).
    destruct (o_kind o), proto, (o_typed o), mask; assumption || apply G.
  - destruct (nth_error (objs s) i) as [o|]; [|exact Z]. destruct (o_st o); try exact Z. destruct (o_kind o); try exact Z; apply G.
  - unfold set_fn. destruct (nth_error (objs s) i) as [o|]; [|exact Z]. destruct (alive s i o); [left; auto|exact Z].
  - unfold set_fn. destruct (nth_error (objs s) i) as [o|]; [|exact Z]. destruct (alive s i o); [left; auto|exact Z].
  - unfold set_fn. destruct (nth_error (objs s) i) as [o|]; [|exact Z]. destruct (alive s i o); [left; auto|exact Z].
  - unfold set_fn. destruct (nth_error (objs s) i) as [o|]; [|exact Z]. destruct (alive s i o); [left; auto|exact Z].
  - assert (I : steady s (exec k ioid want last s)).
    { unfold exec. destruct (get ioid (by_ioid s)) as [j|]; [|exact Z]. destruct (nth_error (objs s) j) as [o|]; [|exact Z].
      destruct (o_st o); [destruct (o_kind o); right; reflexivity| | |exact Z];
        (destruct (o_kind o); try (right; reflexivity));
        (destruct (match k with Rpc => _ | _ => _ end); [right; reflexivity|]);
        (destruct (nth_error (chans s) (o_chan o)) as [ch|]; [|exact Z]); try exact Z; left; auto. }
    destruct k; try exact Z; (destruct (up s); [apply I|exact Z]).
  - destruct (is_info i s); [exact Z|apply G].
  - destruct (is_info i s); [exact Z|apply G].
  - destruct (up s); [|exact Z]. unfold cancel. destruct (get ioid (by_ioid s)) as [j|]; [|exact Z]. destruct (nth_error (objs s) j) as [o|]; [|exact Z].
    destruct (nth_error (chans s) (o_chan o)) as [ch|]; [|exact Z]. destruct (_ && _); [|exact Z]. destruct (o_st o); try exact Z.
    left. destruct (o_cancel o); auto.
  - destruct (up s) eqn:U; [|exact Z]. unfold destroy_req. cbn zeta.
    destruct (get sid (by_sid s)) as [c|], (get ioid (by_ioid s)) as [j|]; try exact Z.
    all: match goal with |- context [op_cleanup ?n ?s0] => pose proof (shr_op_cleanup n s0) as SH; pose proof (quiet_op_cleanup n s0) as Q; destruct (op_cleanup n s0) as [s1 o1] end.
    all: left; cbn [fst snd] in *; rewrite (h_up _ _ SH); split; [|apply quiet_calls; exact Q].
    + cbn [set_ioids up]. apply (h_up _ _ (shr_chan_forget _ _ _)).
    + reflexivity.
  - destruct (up s); [|exact Z]. unfold get_field. destruct (get sid (by_sid s)) as [c|]; [|exact Z].
    destruct (get ioid (by_ioid s)); [exact Z|]. cbn zeta.
    destruct (nth_error (chans s) c) as [ch|]; [destruct (c_onop ch)|]; try (left; cbn [fst snd]; split; [apply up_add|reflexivity]).
    pose proof (info_frame (length (objs s)) false (add_op (new_op Info Executing c ioid) s)) as K.
    destruct (info_reply _ _ _) as [s2 o]. left. cbn [fst snd] in *. destruct K as (K1 & K2). rewrite K1, up_add. auto.
  - destruct (is_info i s); [|exact Z]. left. apply info_frame.
  - destruct (up s); [right; reflexivity|exact Z].
  - destruct (up s); [right; reflexivity|exact Z].
Qed.
Lemma conn_cleanup_up : forall s, up (fst (conn_cleanup s)) = false.
Proof. intros s. rewrite (h_up _ _ (shr_conn_cleanup s)). reflexivity. Qed.

(** ** Nothing is sent once the connection is closed *)
Definition unsent (o : output) : bool := negb (sent o).
Lemma quiet_unsent : forall l, forallb quiet l = true -> forallb unsent l = true.
Proof.
  induction l as [|x l IH]; [reflexivity|]. cbn. intros H. apply andb_prop in H as (A & B). rewrite (IH B), andb_true_r. destruct x; try discriminate; reflexivity.
Qed.
Lemma gpr_down : forall j h v s, up s = false -> gpr_reply j h v s = (s, []).
Proof.
  intros j h v s U. unfold gpr_reply. destruct (nth_error (objs s) j) as [o|]; [|reflexivity]. rewrite U, andb_false_r. reflexivity.
Qed.
Lemma info_down : forall j ok s, up s = false -> info_reply j ok s = (s, []).
Proof.
  intros j ok s U. unfold info_reply. destruct (nth_error (objs s) j) as [o|]; [|reflexivity]. rewrite U, andb_false_r. reflexivity.
Qed.
Lemma sent_step : forall s e, up s = false -> forallb unsent (snd (step s e)) = true /\ up (fst (step s e)) = false.
Proof.
  intros s e U. split.
  - assert (C : forall c, forallb unsent (snd (close_chan c s)) = true).
    { intros c. unfold close_chan. destruct (chan_alive s c); [|reflexivity]. destruct (nth_error (chans s) c) as [ch|]; [|reflexivity].
      pose proof (quiet_chan_cleanup c s) as Q. destruct (chan_cleanup c s) as [s1 o]. cbn [snd] in *. rewrite U. cbn [andb app].
      apply quiet_unsent; exact Q. }
    destruct e; cbn [step]; rewrite ?U; try reflexivity; try apply C; try (destruct k; reflexivity);
      try (unfold set_fn; destruct (nth_error (objs s) i) as [o|]; [destruct (alive s i o)|]; reflexivity).
    + destruct (is_info i s); [reflexivity|]. unfold connect. destruct (nth_error (objs s) i) as [o|] eqn:E; [|reflexivity].
      destruct (alive s i o); [|reflexivity].
      rewrite (gpr_down i 0 (Some NoValue) s U), (gpr_down i 0 (Some NoValue) (set_op i (with_typed o) s) U).
      destruct (o_st o), (o_kind o), proto, (o_typed o), mask; reflexivity.
    + rewrite gpr_down by exact U. destruct (nth_error (objs s) i) as [o|]; [|reflexivity]. destruct (o_st o), (o_kind o); reflexivity.
    + rewrite gpr_down by exact U. destruct (is_info i s); reflexivity.
    + rewrite gpr_down by exact U. destruct (is_info i s); reflexivity.
    + rewrite info_down by exact U. destruct (is_info i s); reflexivity.
  - destruct (steady_step s e) as [(H & _)|H]; [congruence|rewrite H; apply conn_cleanup_up].
Qed.
Lemma sent_run_down : forall tr s, up s = false -> forallb unsent (snd (run s tr)) = true.
Proof.
  induction tr as [|e tr IH]; intros s U; cbn [run]; [reflexivity|].
  destruct (sent_step s e U) as (A & B). destruct (step s e) as [s1 o1]. cbn [fst snd] in *. specialize (IH s1 B).
  destruct (run s1 tr) as [s2 o2]. cbn [snd] in *. rewrite forallb_app, A, IH. reflexivity.
Qed.
Lemma after_down_calls : forall a b, forallb calls a = true -> after_down (a ++ b) = after_down b.
Proof.
  induction a as [|x a IH]; intros b H; [reflexivity|]. cbn in H. apply andb_prop in H as (A & B).
  destruct x; try discriminate A; cbn; apply IH; exact B.
Qed.
Lemma after_down_sub : forall l, forallb unsent l = true -> forallb unsent (after_down l) = true.
Proof.
  induction l as [|x l IH]; [reflexivity|]. intros H. cbn in H. apply andb_prop in H as (A & B). destruct x; cbn; try (apply IH; exact B). exact B.
Qed.
Lemma sent_run : forall tr s, forallb unsent (after_down (snd (run s tr))) = true.
Proof.
  induction tr as [|e tr IH]; intros s; cbn [run]; [reflexivity|].
  destruct (steady_step s e) as [(U & C)|H].
  - specialize (IH (fst (step s e))). destruct (step s e) as [s1 o1]. cbn [fst snd] in *.
    destruct (run s1 tr) as [s2 o2]. cbn [snd] in *. rewrite after_down_calls by exact C. exact IH.
  - rewrite H. destruct (conn_cleanup_out s) as (q & Q1 & Q2). pose proof (conn_cleanup_up s) as U.
    destruct (conn_cleanup s) as [s1 o1]. cbn [fst snd] in *. subst o1. pose proof (sent_run_down tr s1 U) as R.
    destruct (run s1 tr) as [s2 o2]. cbn [snd app after_down] in *. rewrite forallb_app, (quiet_unsent _ Q2), R. reflexivity.
Qed.

(** ** An operation which has ended stays so, in silence *)
Lemma dead_step : forall s e i, W s -> is_dead s i -> is_dead (fst (step s e)) i.
Proof.
  intros s e i Hw D. assert (X : (exists j, e = OnClose j) \/ forall j, e <> OnClose j).
  { destruct e; try (right; congruence). left; eexists; reflexivity. }
  destruct X as [(j & ->)|X].
  - cbn [step]. unfold set_fn. destruct (nth_error (objs s) j) as [o|] eqn:E; [|exact D]. destruct (alive s j o); [|exact D].
    destruct D as (p & P1 & P2). unfold is_dead, set_op; cbn [fst objs]. rewrite (nth_upd _ _ _ _ _ _ E).
    destruct (Nat.eqb_spec i j) as [->|]; [|eauto]. rewrite E in P1. injection P1 as <-. exists (with_close o); auto.
  - destruct (piece_step s e X Hw) as (_ & _ & F). apply (e_dead _ _ _ _ (F i)); exact D.
Qed.
Definition hush (i : nat) (o : output) : bool := negb (about i o).
Lemma hush_op_cleanup : forall i j s, is_dead s i -> forallb (hush i) (snd (op_cleanup j s)) = true.
Proof.
  intros i j s (p & P1 & P2). unfold op_cleanup. destruct (nth_error (objs s) j) as [o|] eqn:E; [|reflexivity].
  destruct (Nat.eqb_spec j i) as [->|N].
  - rewrite E in P1. injection P1 as <-. rewrite P2. reflexivity.
  - apply Nat.eqb_neq in N. destruct (o_st o), (o_cancel o), (o_close o); cbn; unfold hush, about; rewrite ?N; reflexivity.
Qed.
Lemma dead_shr : forall s s' i, shr s s' -> is_dead s i -> is_dead s' i.
Proof.
  intros s s' i H (o & A & B). destruct (h_obj _ _ H _ _ A) as (o' & C & D). exists o'. split; [exact C|].
  destruct D as [->|(D & ->)]; [exact B|reflexivity].
Qed.
Lemma hush_ops_cleanup : forall i l s, is_dead s i -> forallb (hush i) (snd (ops_cleanup l s)) = true.
Proof.
  intros i. induction l as [|[k j] l IH]; intros s D; cbn [ops_cleanup]; [reflexivity|].
  pose proof (hush_op_cleanup i j s D) as Q. pose proof (dead_shr _ _ _ (shr_op_cleanup j s) D) as D'.
  destruct (op_cleanup j s) as [s1 o1]. specialize (IH s1 D'). destruct (ops_cleanup l s1) as [s2 o2]. cbn [snd] in *. rewrite forallb_app, Q, IH. reflexivity.
Qed.
Lemma hush_chan_cleanup : forall i c s, is_dead s i -> forallb (hush i) (snd (chan_cleanup c s)) = true.
Proof.
  intros i c s D. unfold chan_cleanup. destruct (nth_error (chans s) c) as [ch|]; [|reflexivity]. destruct (c_open ch); [|reflexivity].
  match goal with |- context [ops_cleanup ?l ?s0] => pose proof (hush_ops_cleanup i l s0 D) as K; destruct (ops_cleanup l s0) as [s1 o1] end.
  cbn [snd] in *. rewrite forallb_app, K. destruct (c_close ch); reflexivity.
Qed.
Lemma hush_chans_cleanup : forall i l s, is_dead s i -> forallb (hush i) (snd (chans_cleanup l s)) = true.
Proof.
  intros i. induction l as [|[k j] l IH]; intros s D; cbn [chans_cleanup]; [reflexivity|].
  pose proof (hush_chan_cleanup i j s D) as Q. pose proof (dead_shr _ _ _ (shr_chan_cleanup j s) D) as D'.
  destruct (chan_cleanup j s) as [s1 o1]. specialize (IH s1 D'). destruct (chans_cleanup l s1) as [s2 o2]. cbn [snd] in *. rewrite forallb_app, Q, IH. reflexivity.
Qed.
Lemma hush_conn_cleanup : forall i s, is_dead s i -> forallb (hush i) (snd (conn_cleanup s)) = true.
Proof.
  intros i s D. unfold conn_cleanup. fold (emptied s). cbn zeta.
  pose proof (hush_ops_cleanup i (by_ioid s) (emptied s) D) as K. pose proof (dead_shr _ _ _ (shr_ops_cleanup (by_ioid s) (emptied s)) D) as D'.
  destruct (ops_cleanup (by_ioid s) (emptied s)) as [s1 o1].
  pose proof (hush_chans_cleanup i (by_sid s) s1 D') as L. destruct (chans_cleanup (by_sid s) s1) as [s2 o2].
  cbn [snd forallb] in *. rewrite forallb_app, K, L. reflexivity.
Qed.
Lemma hush_gpr_reply : forall i j h v s, is_dead s i -> forallb (hush i) (snd (gpr_reply j h v s)) = true.
Proof.
  intros i j h v s (p & P1 & P2). unfold gpr_reply. destruct (nth_error (objs s) j) as [o|] eqn:E; [|reflexivity].
  destruct (_ && _); [|reflexivity].
  destruct (Nat.eqb_spec j i) as [->|N]; [rewrite E in P1; injection P1 as <-; rewrite P2; reflexivity|]. apply Nat.eqb_neq in N.
  destruct (o_st o), v as [r|]; try destruct (reply_ok o r); cbn; unfold hush, about; rewrite ?N; reflexivity.
Qed.
Lemma hush_info_reply : forall i j ok s, is_dead s i -> forallb (hush i) (snd (info_reply j ok s)) = true.
Proof.
  intros i j ok s (p & P1 & P2). unfold info_reply. destruct (nth_error (objs s) j) as [o|] eqn:E; [|reflexivity].
  destruct (_ && _); [|reflexivity].
  destruct (Nat.eqb_spec j i) as [->|N]; [rewrite E in P1; injection P1 as <-; rewrite P2; reflexivity|]. apply Nat.eqb_neq in N.
  destruct (o_st o); cbn; unfold hush, about; rewrite ?N; reflexivity.
Qed.
Lemma dead_add : forall o s i, is_dead s i -> is_dead (add_op o s) i.
Proof.
  intros o s i (p & P1 & P2). exists p. rewrite objs_add_op, nth_error_app1; [auto|eapply nth_lt; exact P1].
Qed.
Lemma dead_set_other : forall s i j o o', nth_error (objs s) j = Some o -> (o_st o = Dead -> o_st o' = Dead) -> is_dead s i -> is_dead (set_op j o' s) i.
Proof.
  intros s i j o o' E F (p & P1 & P2). unfold is_dead, set_op; cbn [objs]. rewrite (nth_upd _ _ _ _ _ _ E).
  destruct (Nat.eqb_spec i j) as [->|]; [|eauto]. rewrite E in P1. injection P1 as <-. exists o'; auto.
Qed.
Lemma hush_step : forall i s e, is_dead s i -> forallb (hush i) (snd (step s e)) = true.
Proof.
  intros i s e D. destruct e; cbn [step].
  - destruct (up s); [|reflexivity]. unfold create. destruct (N.eqb _ _); [reflexivity|]. destruct (fresh _ _) as [[sid nx]|]; [|reflexivity].
    destruct h as [[[a b] c]|]; reflexivity.
  - destruct (up s); [|reflexivity]. unfold destroy_chan. destruct (get sid (by_sid s)) as [c|]; [|reflexivity].
    pose proof (hush_chan_cleanup i c s D) as Q. destruct (chan_cleanup c s) as [s1 o]. cbn [snd] in *. rewrite forallb_app, Q. reflexivity.
  - unfold close_chan. destruct (chan_alive s c); [|reflexivity]. destruct (nth_error (chans s) c) as [ch|]; [|reflexivity].
    pose proof (hush_chan_cleanup i c s D) as Q. destruct (chan_cleanup c s) as [s1 o]. cbn [snd] in *. rewrite forallb_app, Q, andb_true_r.
    destruct (up s && c_open ch); reflexivity.
  - assert (I : forallb (hush i) (snd (init k sid ioid s)) = true).
    { unfold init. destruct (get sid (by_sid s)) as [c|]; [|apply hush_conn_cleanup; exact D].
      destruct (get ioid (by_ioid s)); [apply hush_conn_cleanup; exact D|]. cbn zeta. destruct k; try reflexivity.
      pose proof (hush_gpr_reply i (length (objs s)) 0 (Some NoValue) _ (dead_add (new_op Rpc Creating c ioid) s i D)) as K.
      destruct (gpr_reply _ _ _ _) as [s2 o]. cbn [snd forallb] in *. exact K. }
    destruct k; try reflexivity; (destruct (up s); [apply I|reflexivity]).
  - destruct (is_info i0 s); [reflexivity|]. unfold connect. destruct (nth_error (objs s) i0) as [o|] eqn:E; [|reflexivity].
    destruct (alive s i0 o); [|reflexivity].
    pose proof (hush_gpr_reply i i0 0 (Some NoValue) s D) as A.
    pose proof (hush_gpr_reply i i0 0 (Some NoValue) (set_op i0 (with_typed o) s) (dead_set_other _ _ _ _ (with_typed o) E (fun x => x) D)) as B.
    destruct (o_st o), (o_kind o), proto, (o_typed o), mask; assumption || reflexivity.
  - destruct (nth_error (objs s) i0) as [o|]; [|reflexivity]. pose proof (hush_gpr_reply i i0 0 None s D) as A.
    destruct (o_st o), (o_kind o); assumption || reflexivity.
  - unfold set_fn. destruct (nth_error (objs s) i0) as [o|]; [|reflexivity]. destruct (alive s i0 o); reflexivity.
  - unfold set_fn. destruct (nth_error (objs s) i0) as [o|]; [|reflexivity]. destruct (alive s i0 o); reflexivity.
  - unfold set_fn. destruct (nth_error (objs s) i0) as [o|]; [|reflexivity]. destruct (alive s i0 o); reflexivity.
  - unfold set_fn. destruct (nth_error (objs s) i0) as [o|]; [|reflexivity]. destruct (alive s i0 o); reflexivity.
  - assert (I : forallb (hush i) (snd (exec k ioid want last s)) = true).
    { unfold exec. destruct (get ioid (by_ioid s)) as [j|]; [|reflexivity]. destruct (nth_error (objs s) j) as [o|] eqn:E; [|reflexivity].
      destruct (Nat.eqb_spec j i) as [->|N].
      { destruct D as (p & P1 & P2). rewrite E in P1. injection P1 as <-. rewrite P2. reflexivity. }
      apply Nat.eqb_neq in N.
      destruct (o_st o); [destruct (o_kind o); apply hush_conn_cleanup; exact D| | |reflexivity];
        (destruct (o_kind o); try (apply hush_conn_cleanup; exact D));
        (destruct (match k with Rpc => _ | _ => _ end); [apply hush_conn_cleanup; exact D|]);
        (destruct (nth_error (chans s) (o_chan o)) as [ch|]; [|reflexivity]); try reflexivity;
        cbn [snd forallb]; unfold hush, about; rewrite N; reflexivity. }
    destruct k; try reflexivity; (destruct (up s); [apply I|reflexivity]).
  - destruct (is_info i0 s); [reflexivity|apply hush_gpr_reply; exact D].
  - destruct (is_info i0 s); [reflexivity|apply hush_gpr_reply; exact D].
  - destruct (up s); [|reflexivity]. unfold cancel. destruct (get ioid (by_ioid s)) as [j|]; [|reflexivity]. destruct (nth_error (objs s) j) as [o|] eqn:E; [|reflexivity].
    destruct (nth_error (chans s) (o_chan o)) as [ch|]; [|reflexivity]. destruct (_ && _); [|reflexivity].
    destruct (Nat.eqb_spec j i) as [->|N].
    { destruct D as (p & P1 & P2). rewrite E in P1. injection P1 as <-. rewrite P2. reflexivity. }
    apply Nat.eqb_neq in N. destruct (o_st o), (o_cancel o); cbn; unfold hush, about; rewrite ?N; reflexivity.
  - destruct (up s); [|reflexivity]. unfold destroy_req. cbn zeta.
    destruct (get sid (by_sid s)) as [c|], (get ioid (by_ioid s)) as [j|]; try reflexivity; apply hush_op_cleanup.
    + eapply dead_shr; [|exact D]. eapply shr_trans; [apply shr_chan_forget|apply shr_set_ioids]. intros e0; apply del_sub.
    + exact D.
  - destruct (up s); [|reflexivity]. unfold get_field. destruct (get sid (by_sid s)) as [c|]; [|reflexivity].
    destruct (get ioid (by_ioid s)); [reflexivity|]. cbn zeta.
    destruct (nth_error (chans s) c) as [ch|]; [destruct (c_onop ch)|]; try reflexivity.
    pose proof (hush_info_reply i (length (objs s)) false _ (dead_add (new_op Info Executing c ioid) s i D)) as K.
    destruct (info_reply _ _ _) as [s2 o]. cbn [snd forallb] in *. exact K.
  - destruct (is_info i0 s); [|reflexivity]. apply hush_info_reply; exact D.
  - destruct (up s); [apply hush_conn_cleanup; exact D|reflexivity].
  - destruct (up s); [apply hush_conn_cleanup; exact D|reflexivity].
Qed.
Lemma W_step : forall s e, W s -> W (fst (step s e)).
Proof.
  intros s e Hw. assert (X : (exists j, e = OnClose j) \/ forall j, e <> OnClose j).
  { destruct e; try (right; congruence). left; eexists; reflexivity. }
  destruct X as [(j & ->)|X].
  - cbn [step]. unfold set_fn. destruct (nth_error (objs s) j) as [o|] eqn:E; [|exact Hw]. destruct (alive s j o); [|exact Hw].
    eapply W_set; [exact E|reflexivity|reflexivity|exact Hw].
  - apply (piece_step s e X Hw).
Qed.
Lemma hush_run : forall i tr s, W s -> is_dead s i -> forallb (hush i) (snd (run s tr)) = true /\ is_dead (fst (run s tr)) i.
Proof.
  induction tr as [|e tr IH]; intros s Hw D; cbn [run]; [auto|].
  pose proof (hush_step i s e D) as Q. pose proof (dead_step s e i Hw D) as D1. pose proof (W_step s e Hw) as W1.
  destruct (step s e) as [s1 o1]. cbn [fst snd] in *. destruct (IH s1 W1 D1) as (A & B). destruct (run s1 tr) as [s2 o2]. cbn [fst snd] in *.
  rewrite forallb_app, Q, A. auto.
Qed.

(** ** An operation which has not ended is in both tables *)
Definition Lc (s : conn) : Prop := forall i o, nth_error (objs s) i = Some o -> o_st o <> Dead -> get (o_ioid o) (by_ioid s) = Some i.
Definition Lh (P : nat -> Prop) (s : conn) : Prop := forall i o, nth_error (objs s) i = Some o -> o_st o <> Dead -> P (o_chan o) ->
  exists ch, nth_error (chans s) (o_chan o) = Some ch /\ get (o_ioid o) (c_ops ch) = Some i.
Record L (s : conn) : Prop := {
  l_c : Lc s; l_h : Lh (fun _ => True) s; l_up : forall i o, nth_error (objs s) i = Some o -> o_st o <> Dead -> up s = true
}.
Lemma Lc_forget : forall P c k s, Lh P s -> (forall i o, nth_error (objs s) i = Some o -> o_st o <> Dead -> o_ioid o <> k) -> Lh P (chan_forget c k s).
Proof.
  intros P c k s H F i o E D Q. rewrite objs_chan_forget in E. destruct (H _ _ E D Q) as (ch & C & G).
  unfold chan_forget. destruct (nth_error (chans s) c) as [c0|] eqn:C0; [|eauto]. cbn [set_chan chans]. rewrite (nth_upd _ _ _ _ _ _ C0).
  destruct (Nat.eqb_spec (o_chan o) c) as [EQ|]; [|eauto]. rewrite EQ, C0 in C. injection C as <-. eexists; split; [reflexivity|].
  cbn. rewrite get_del_other; [exact G|]. eapply F; eassumption.
Qed.
Lemma by_ioid_forget : forall c k s, by_ioid (chan_forget c k s) = by_ioid s.
Proof. intros. unfold chan_forget. destruct (nth_error (chans s) c); reflexivity. Qed.
Lemma live_op_cleanup : forall P j s, Lc s -> Lh P s -> Lc (fst (op_cleanup j s)) /\ Lh P (fst (op_cleanup j s)).
Proof.
  intros P j s HC HH. unfold op_cleanup. destruct (nth_error (objs s) j) as [o|] eqn:E; [|auto].
  assert (X : o_st o <> Dead ->
    let s2 := chan_forget (o_chan o) (o_ioid o) (set_op j (dead o) s) in
    Lc (set_ioids (del (o_ioid o) (by_ioid s2)) s2) /\ Lh P (set_ioids (del (o_ioid o) (by_ioid s2)) s2)).
  { intros D. pose proof (HC _ _ E D) as Gj. cbn zeta.
    assert (V : forall i p, nth_error (objs (set_op j (dead o) s)) i = Some p -> o_st p <> Dead -> nth_error (objs s) i = Some p /\ o_ioid p <> o_ioid o).
    { intros i p H1 H2. cbn [set_op objs] in H1. rewrite (nth_upd _ _ _ _ _ _ E) in H1. destruct (Nat.eqb_spec i j) as [EQ|N].
      - injection H1 as <-. exfalso; apply H2; reflexivity.
      - split; [exact H1|]. intros Q. pose proof (HC _ _ H1 H2) as G. rewrite Q, Gj in G. injection G as G. congruence. }
    split.
    - intros i p H1 H2. cbn [set_ioids objs by_ioid] in *. rewrite objs_chan_forget in H1. destruct (V _ _ H1 H2) as (H3 & H4).
      rewrite by_ioid_forget, get_del_other by exact H4. apply HC; assumption.
    - intros i p H1 H2 H3. cbn [set_ioids objs chans] in *. eapply (Lc_forget P); try eassumption.
      + intros i' p' Q1 Q2 Q3. destruct (V _ _ Q1 Q2) as (Q4 & _). apply HH; assumption.
      + intros i' p' Q1 Q2. apply (V _ _ Q1 Q2). }
  destruct (o_st o) eqn:S; cbn [fst]; (apply X; discriminate) || auto.
Qed.
Lemma live_ops_cleanup : forall P l s, Lc s -> Lh P s -> Lc (fst (ops_cleanup l s)) /\ Lh P (fst (ops_cleanup l s)).
Proof.
  intros P. induction l as [|[k j] l IH]; intros s HC HH; cbn [ops_cleanup]; [auto|].
  destruct (live_op_cleanup P j s HC HH) as (A & B). destruct (op_cleanup j s) as [s1 o1]. cbn [fst] in *.
  destruct (IH s1 A B) as (C & D). destruct (ops_cleanup l s1) as [s2 o2]. auto.
Qed.
Lemma op_cleanup_dead : forall j s o, nth_error (objs s) j = Some o -> is_dead (fst (op_cleanup j s)) j.
Proof.
  intros j s o E. pose proof (objs_op_cleanup j s) as O. rewrite E in O. unfold is_dead. rewrite O.
  destruct (o_st o) eqn:S; try (rewrite upd_same by (eapply nth_lt; exact E); eexists; split; reflexivity). exists o. auto.
Qed.
Lemma ops_cleanup_dead : forall l s k i, In (k, i) l -> i < length (objs s) -> is_dead (fst (ops_cleanup l s)) i.
Proof.
  induction l as [|[k0 j] l IH]; intros s k i H N; [destruct H|]. cbn [ops_cleanup].
  pose proof (shr_op_cleanup j s) as S1. pose proof (shr_ops_cleanup l (fst (op_cleanup j s))) as S2.
  pose proof (op_cleanup_dead j s) as DJ. specialize (IH (fst (op_cleanup j s))).
  destruct (op_cleanup j s) as [s1 o1]. cbn [fst] in *. destruct (ops_cleanup l s1) as [s2 o2]. cbn [fst] in *.
  destruct H as [H|H].
  - injection H as _ ->. eapply dead_shr; [exact S2|]. apply nth_error_Some in N. destruct (nth_error (objs s) i) as [o|] eqn:E; [|congruence]. eapply DJ; reflexivity.
  - eapply IH; [exact H|]. rewrite (h_len _ _ S1). exact N.
Qed.
Lemma L_chan_cleanup : forall c s, L s -> L (fst (chan_cleanup c s)) /\
  (forall ch, nth_error (chans s) c = Some ch -> c_open ch = true -> forall i, on_chan s c i -> is_dead (fst (chan_cleanup c s)) i).
Proof.
  intros c s [HC HH HU]. unfold chan_cleanup. destruct (nth_error (chans s) c) as [ch|] eqn:C; [|split; [split; assumption|discriminate]].
  destruct (c_open ch) eqn:O; [|split; [split; assumption|congruence]].
  match goal with |- context [ops_cleanup ?l ?x] => set (s0 := x) end.
  assert (C0 : Lc s0) by (intros i o H1 H2; exact (HC i o H1 H2)).
  assert (H0 : Lh (fun k => k <> c) s0).
  { intros i o H1 H2 H3. destruct (HH i o H1 H2 I) as (c1 & K1 & K2). exists c1. split; [|exact K2].
    unfold s0; cbn [set_chan chans]. rewrite upd_other by congruence. exact K1. }
  assert (DD : forall i o, nth_error (objs s) i = Some o -> o_chan o = c -> is_dead (fst (ops_cleanup (c_ops ch) s0)) i).
  { intros i o H1 H2. assert (X : o_st o = Dead \/ o_st o <> Dead) by (destruct (o_st o); auto; right; discriminate).
    destruct X as [X|X].
    - eapply dead_shr; [apply shr_ops_cleanup|]. exists o; auto.
    - destruct (HH i o H1 X I) as (c1 & K1 & K2). rewrite H2, C in K1. injection K1 as <-. eapply ops_cleanup_dead; [apply get_in; exact K2|].
      eapply nth_lt; exact H1. }
  destruct (live_ops_cleanup _ (c_ops ch) s0 C0 H0) as (A & B).
  pose proof (shr_ops_cleanup (c_ops ch) s0) as SH.
  destruct (ops_cleanup (c_ops ch) s0) as [s1 o1]. cbn [fst] in *.
  assert (BACK : forall i o, nth_error (objs s1) i = Some o -> o_st o <> Dead -> nth_error (objs s) i = Some o).
  { intros i o H1 H2. assert (N : i < length (objs s)) by (change (objs s) with (objs s0); rewrite <- (h_len _ _ SH); eapply nth_lt; exact H1).
    apply nth_error_Some in N. destruct (nth_error (objs s) i) as [p|] eqn:E; [|congruence].
    destruct (h_obj _ _ SH i p E) as (p' & K1 & K2). rewrite H1 in K1. injection K1 as <-. destruct K2 as [->|(_ & ->)]; [reflexivity|]. exfalso; apply H2; reflexivity. }
  split.
  - split; [exact A| |].
    + intros i o H1 H2 _. apply B; try assumption. intros Q. destruct (DD i o (BACK _ _ H1 H2) Q) as (p & P1 & P2). congruence.
    + intros i o H1 H2. rewrite (h_up _ _ SH). change (up s0) with (up s). eapply HU; [apply BACK; eassumption|exact H2].
  - intros ch' _ _ i H. unfold on_chan in H. destruct (nth_error (objs s) i) as [o|] eqn:E; [|destruct H]. eapply DD; eassumption.
Qed.
Lemma conn_cleanup_dead : forall s i, Lc s -> i < length (objs s) -> is_dead (fst (conn_cleanup s)) i.
Proof.
  intros s i H N. unfold conn_cleanup. fold (emptied s). cbn zeta.
  assert (D : is_dead (fst (ops_cleanup (by_ioid s) (emptied s))) i).
  { assert (M := N). apply nth_error_Some in M. destruct (nth_error (objs s) i) as [o|] eqn:E; [|congruence].
    assert (X : o_st o = Dead \/ o_st o <> Dead) by (destruct (o_st o); auto; right; discriminate). destruct X as [X|X].
    - eapply dead_shr; [apply shr_ops_cleanup|]. exists o; auto.
    - eapply ops_cleanup_dead; [apply get_in; eapply H; eassumption|exact N]. }
  destruct (ops_cleanup (by_ioid s) (emptied s)) as [s1 o1].
  pose proof (dead_shr _ _ _ (shr_chans_cleanup (by_sid s) s1) D) as D'. destruct (chans_cleanup (by_sid s) s1) as [s2 o2]. exact D'.
Qed.
Lemma L_conn_cleanup : forall s, L s -> L (fst (conn_cleanup s)).
Proof.
  intros s [HC _ _].
  assert (D : forall i o, nth_error (objs (fst (conn_cleanup s))) i = Some o -> o_st o = Dead).
  { intros i o H. assert (N : i < length (objs s)) by (pose proof (h_len _ _ (shr_conn_cleanup s)) as K; cbn in K; rewrite <- K; eapply nth_lt; exact H).
    destruct (conn_cleanup_dead s i HC N) as (p & P1 & P2). congruence. }
  split; intros i o H1 H2; exfalso; apply H2; eapply D; exact H1.
Qed.
Lemma L_set : forall s j o o', nth_error (objs s) j = Some o -> o_ioid o' = o_ioid o -> o_chan o' = o_chan o ->
  (o_st o = Dead -> o_st o' = Dead) -> L s -> L (set_op j o' s).
Proof.
  intros s j o o' E I C F [HC HH HU].
  assert (V : forall i p, nth_error (objs (set_op j o' s)) i = Some p -> o_st p <> Dead -> exists q, nth_error (objs s) i = Some q /\ o_st q <> Dead /\ o_ioid p = o_ioid q /\ o_chan p = o_chan q).
  { intros i p H1 H2. cbn [set_op objs] in H1. rewrite (nth_upd _ _ _ _ _ _ E) in H1. destruct (Nat.eqb_spec i j) as [->|].
    - injection H1 as <-. exists o. split; [exact E|]. split; [intros X; apply H2, F, X|auto].
    - exists p; auto. }
  split.
  - intros i p H1 H2. destruct (V _ _ H1 H2) as (q & Q1 & Q2 & Q3 & Q4). rewrite Q3. exact (HC _ _ Q1 Q2).
  - intros i p H1 H2 _. destruct (V _ _ H1 H2) as (q & Q1 & Q2 & Q3 & Q4). rewrite Q3, Q4. exact (HH _ _ Q1 Q2 Logic.I).
  - intros i p H1 H2. destruct (V _ _ H1 H2) as (q & Q1 & Q2 & Q3 & Q4). exact (HU _ _ Q1 Q2).
Qed.
Lemma L_gpr_reply : forall j h v s, L s -> L (fst (gpr_reply j h v s)).
Proof.
  intros j h v s H. unfold gpr_reply. destruct (nth_error (objs s) j) as [o|] eqn:E; [|exact H]. destruct (_ && _); [|exact H].
  destruct (o_st o) eqn:S; try exact H; destruct v as [r|]; try destruct (reply_ok o r); try exact H;
    (eapply L_set; [exact E|reflexivity|reflexivity|congruence|exact H]).
Qed.
Lemma L_info_reply : forall j ok s, L s -> L (fst (info_reply j ok s)).
Proof.
  intros j ok s H. unfold info_reply. destruct (nth_error (objs s) j) as [o|] eqn:E; [|exact H]. destruct (_ && _); [|exact H].
  destruct (o_st o) eqn:S; try exact H. cbn [fst].
  pose proof (l_c _ H _ _ E ltac:(congruence)) as Gj.
  pose proof (L_set s j o (with_st Dead o) E eq_refl eq_refl ltac:(congruence) H) as L1.
  set (s1 := set_op j (with_st Dead o) s) in *. destruct L1 as [A B C].
  assert (V : forall i p, nth_error (objs s1) i = Some p -> o_st p <> Dead -> o_ioid p <> o_ioid o).
  { intros i p H1 H2 Q. pose proof (A _ _ H1 H2) as G. change (by_ioid s1) with (by_ioid s) in G. rewrite Q, Gj in G. injection G as G. subst i.
    unfold s1 in H1; cbn [set_op objs] in H1. rewrite upd_same in H1 by (eapply nth_lt; exact E). injection H1 as <-. apply H2; reflexivity. }
  split.
  - intros i p H1 H2. rewrite objs_chan_forget in H1. rewrite by_ioid_forget. cbn [set_ioids by_ioid objs] in *.
    rewrite get_del_other by (eapply V; eassumption). apply A; assumption.
  - apply Lc_forget; [|exact V]. intros i p H1 H2 H3. exact (B i p H1 H2 H3).
  - intros i p H1 H2. rewrite objs_chan_forget in H1. rewrite (h_up _ _ (shr_chan_forget _ _ _)). exact (C i p H1 H2).
Qed.
Lemma get_put_same : forall k v m, get k (put k v m) = Some v.
Proof. intros. unfold put. cbn. rewrite N.eqb_refl. reflexivity. Qed.
Lemma get_put_other : forall k k' v m, k <> k' -> get k (put k' v m) = get k m.
Proof. intros. unfold put. cbn. destruct (N.eqb k k') eqn:E; [apply N.eqb_eq in E; contradiction|]. apply get_del_other; exact H. Qed.
Lemma L_add : forall o s ch, up s = true -> get (o_ioid o) (by_ioid s) = None -> nth_error (chans s) (o_chan o) = Some ch -> L s -> L (add_op o s).
Proof.
  intros o s ch U G C [A B D]. 
  assert (BY : by_ioid (add_op o s) = put (o_ioid o) (length (objs s)) (by_ioid s)) by (unfold add_op; rewrite C; reflexivity).
  assert (CH : chans (add_op o s) = upd (o_chan o) (with_ops (put (o_ioid o) (length (objs s)) (c_ops ch)) ch) (chans s)) by (unfold add_op; rewrite C; reflexivity).
  assert (V : forall i p, nth_error (objs s) i = Some p -> o_st p <> Dead -> o_ioid p <> o_ioid o).
  { intros i p H1 H2 Q. pose proof (A _ _ H1 H2). congruence. }
  split.
  - intros i p H1 H2. rewrite objs_add_op, nth_app_new in H1. rewrite BY. destruct (Nat.eqb_spec i (length (objs s))) as [->|].
    + injection H1 as <-. apply get_put_same.
    + rewrite get_put_other by (eapply V; eassumption). apply A; assumption.
  - intros i p H1 H2 _. rewrite objs_add_op, nth_app_new in H1. rewrite CH. destruct (Nat.eqb_spec i (length (objs s))) as [->|].
    + injection H1 as <-. rewrite upd_same by (eapply nth_lt; exact C). eexists; split; [reflexivity|]. apply get_put_same.
    + destruct (B _ _ H1 H2 Logic.I) as (c1 & K1 & K2). rewrite (nth_upd _ _ _ _ _ _ C). destruct (Nat.eqb_spec (o_chan p) (o_chan o)) as [EQ|]; [|eauto].
      rewrite EQ, C in K1. injection K1 as <-. eexists; split; [reflexivity|]. cbn [with_ops c_ops]. rewrite get_put_other by (eapply V; eassumption). exact K2.
  - intros. rewrite up_add. exact U.
Qed.
Lemma L_step : forall s e, W s -> L s -> L (fst (step s e)).
Proof.
  intros s e Hw H.
  assert (FN : forall f out i, (forall o, o_ioid (f o) = o_ioid o /\ o_chan (f o) = o_chan o /\ o_st (f o) = o_st o) -> L (fst (set_fn f out i s))).
  { intros f out i F. unfold set_fn. destruct (nth_error (objs s) i) as [o|] eqn:E; [|exact H]. destruct (alive s i o); [|exact H].
    destruct (F o) as (F1 & F2 & F3). eapply L_set; [exact E|assumption|assumption|congruence|exact H]. }
  destruct e; cbn [step].
  - destruct (up s); [|exact H]. unfold create. destruct (N.eqb _ _); [exact H|]. destruct (fresh _ _) as [[sid nx]|]; [|exact H].
    destruct H as [A B C]. destruct h as [[[a b] c]|]; (split; [exact A| |exact C]); [|exact B].
    intros i o H1 H2 H3. destruct (B i o H1 H2 H3) as (ch & K1 & K2). exists ch. split; [|exact K2]. cbn [fst chans].
    rewrite nth_error_app1; [exact K1|eapply nth_lt; exact K1].
  - destruct (up s); [|exact H]. unfold destroy_chan. destruct (get sid (by_sid s)) as [c|]; [|exact H].
    pose proof (L_chan_cleanup c s H) as (A & _). destruct (chan_cleanup c s); exact A.
  - unfold close_chan. destruct (chan_alive s c); [|exact H]. destruct (nth_error (chans s) c) as [ch|]; [|exact H].
    pose proof (L_chan_cleanup c s H) as (A & _). destruct (chan_cleanup c s); exact A.
  - assert (X : up s = true -> L (fst (init k sid ioid s))).
    { intros U. unfold init. destruct (get sid (by_sid s)) as [c|] eqn:G; [|apply L_conn_cleanup; exact H].
      destruct (get ioid (by_ioid s)) eqn:G2; [apply L_conn_cleanup; exact H|]. cbn zeta.
      destruct (w_sid _ Hw _ _ (get_in _ _ _ G)) as (ch & C & _).
      pose proof (L_add (new_op k Creating c ioid) s ch U G2 C H) as A. destruct k; try exact A.
      pose proof (L_gpr_reply (length (objs s)) 0 (Some NoValue) _ A) as B. destruct (gpr_reply _ _ _ _); exact B. }
    destruct k; try exact H; (destruct (up s); [apply X; reflexivity|exact H]).
  - destruct (is_info i s); [exact H|]. unfold connect. destruct (nth_error (objs s) i) as [o|] eqn:E; [|exact H]. destruct (alive s i o); [|exact H].
    assert (T : L (set_op i (with_typed o) s)) by (eapply L_set; [exact E|reflexivity|reflexivity|auto|exact H]).
    pose proof (L_gpr_reply i 0 (Some NoValue) _ T) as A. pose proof (L_gpr_reply i 0 (Some NoValue) _ H) as B.
    destruct (o_st o), (o_kind o), proto, (o_typed o), mask; assumption.
  - destruct (nth_error (objs s) i) as [o|]; [|exact H]. pose proof (L_gpr_reply i 0 None _ H) as B. destruct (o_st o), (o_kind o); assumption.
  - apply FN; repeat split.
  - apply FN; repeat split.
  - apply FN; repeat split.
  - apply FN; repeat split.
  - assert (X : L (fst (exec k ioid want last s))).
    { pose proof (L_conn_cleanup s H) as CC. unfold exec. destruct (get ioid (by_ioid s)) as [j|]; [|exact H]. destruct (nth_error (objs s) j) as [o|] eqn:E; [|exact H].
      destruct (o_st o) eqn:S; [destruct (o_kind o); exact CC| | |exact H];
        (destruct (o_kind o); try exact CC);
        (destruct (match k with Rpc => _ | _ => _ end); [exact CC|]);
        (destruct (nth_error (chans s) (o_chan o)) as [ch|]; [|exact H]); try exact H;
        (eapply L_set; [exact E|reflexivity|reflexivity|congruence|exact H]). }
    destruct k; try exact H; (destruct (up s); [apply X|exact H]).
  - destruct (is_info i s); [exact H|apply L_gpr_reply; exact H].
  - destruct (is_info i s); [exact H|apply L_gpr_reply; exact H].
  - destruct (up s); [|exact H]. unfold cancel. destruct (get ioid (by_ioid s)) as [j|]; [|exact H]. destruct (nth_error (objs s) j) as [o|] eqn:E; [|exact H].
    destruct (nth_error (chans s) (o_chan o)) as [ch|]; [|exact H]. destruct (_ && _); [|exact H]. destruct (o_st o) eqn:S; try exact H.
    eapply L_set; [exact E|reflexivity|reflexivity|congruence|exact H].
  - destruct (up s) eqn:U; [|exact H]. unfold destroy_req. cbn zeta.
    destruct (get ioid (by_ioid s)) as [j|] eqn:G; [|destruct (get sid (by_sid s)); exact H].
    assert (X : forall s1, objs s1 = objs s -> by_ioid s1 = by_ioid s -> up s1 = up s ->
      (forall i o, nth_error (objs s) i = Some o -> o_st o <> Dead -> o_ioid o <> ioid ->
         exists ch, nth_error (chans s1) (o_chan o) = Some ch /\ get (o_ioid o) (c_ops ch) = Some i) ->
      L (fst (op_cleanup j (set_ioids (del ioid (by_ioid s1)) s1)))).
    { intros s1 O1 B1 U1 K. set (s2 := set_ioids (del ioid (by_ioid s1)) s1).
      destruct (w_ioid _ Hw _ _ (get_in _ _ _ G)) as (o & E & I1).
      assert (LV : forall i p, nth_error (objs s) i = Some p -> o_st p <> Dead -> i <> j -> o_ioid p <> ioid).
      { intros i p H1 H2 N Q. pose proof (l_c _ H _ _ H1 H2). congruence. }
      pose proof (objs_op_cleanup j s2) as OO. change (objs s2) with (objs s1) in OO. rewrite O1, E in OO.
      pose proof (op_cleanup_dead j s2 o) as DJ. change (objs s2) with (objs s1) in DJ. rewrite O1 in DJ. specialize (DJ E).
      pose proof (shr_op_cleanup j s2) as SH.
      assert (V : forall i p, nth_error (objs (fst (op_cleanup j s2))) i = Some p -> o_st p <> Dead -> i <> j /\ nth_error (objs s) i = Some p).
      { intros i p H1 H2. destruct (Nat.eq_dec i j) as [->|N]; [destruct DJ as (q & Q1 & Q2); congruence|].
        split; [exact N|]. rewrite OO in H1. destruct (o_st o); try (rewrite upd_other in H1 by congruence); exact H1. }
      assert (R : by_ioid (fst (op_cleanup j s2)) = del ioid (by_ioid s) \/ by_ioid (fst (op_cleanup j s2)) = del ioid (del ioid (by_ioid s))).
      { unfold op_cleanup. change (objs s2) with (objs s1). rewrite O1, E. destruct (o_st o); cbn [fst set_ioids by_ioid];
          rewrite ?by_ioid_forget; cbn [set_op by_ioid]; unfold s2; cbn [set_ioids by_ioid]; rewrite B1, ?I1; auto. }
      assert (CH : forall c ch, nth_error (chans s1) c = Some ch -> forall k, k <> ioid ->
         exists ch', nth_error (chans (fst (op_cleanup j s2))) c = Some ch' /\ get k (c_ops ch') = get k (c_ops ch)).
      { intros c ch Hc k Nk. unfold op_cleanup. change (objs s2) with (objs s1). rewrite O1, E.
        assert (Y : exists ch', nth_error (chans (chan_forget (o_chan o) (o_ioid o) (set_op j (dead o) s2))) c = Some ch' /\ get k (c_ops ch') = get k (c_ops ch)).
        { unfold chan_forget. cbn [set_op chans]. change (chans s2) with (chans s1). destruct (nth_error (chans s1) (o_chan o)) as [c0|] eqn:C0; [|exists ch; auto].
          cbn [set_chan chans]. change (chans (set_op j (dead o) s2)) with (chans s1). rewrite (nth_upd _ _ _ _ _ _ C0). destruct (Nat.eqb_spec c (o_chan o)) as [EQ|]; [|exists ch; auto].
          rewrite EQ, C0 in Hc. injection Hc as <-. eexists; split; [reflexivity|]. cbn. rewrite I1. apply get_del_other; exact Nk. }
        destruct (o_st o); cbn [fst]; try exact Y. exists ch. auto. }
      split.
      - intros i p H1 H2. destruct (V _ _ H1 H2) as (N & H3). pose proof (LV _ _ H3 H2 N) as Q.
        destruct R as [R|R]; rewrite R, ?get_del_other by exact Q; exact (l_c _ H _ _ H3 H2).
      - intros i p H1 H2 _. destruct (V _ _ H1 H2) as (N & H3). pose proof (LV _ _ H3 H2 N) as Q.
        destruct (K _ _ H3 H2 Q) as (ch & K1 & K2). destruct (CH _ _ K1 _ Q) as (ch' & K3 & K4). exists ch'. split; [exact K3|congruence].
      - intros i p H1 H2. rewrite (h_up _ _ SH). unfold s2; cbn [set_ioids up]. congruence. }
    destruct (get sid (by_sid s)) as [c|].
    + apply X.
      * apply objs_chan_forget.
      * apply by_ioid_forget.
      * apply (h_up _ _ (shr_chan_forget _ _ _)).
      * intros i o H1 H2 H3. destruct (l_h _ H _ _ H1 H2 Logic.I) as (ch & K1 & K2). unfold chan_forget.
        destruct (nth_error (chans s) c) as [c0|] eqn:C0; [|eauto]. cbn [set_chan chans]. rewrite (nth_upd _ _ _ _ _ _ C0).
        destruct (Nat.eqb_spec (o_chan o) c) as [EQ|]; [|eauto]. rewrite EQ, C0 in K1. injection K1 as <-. eexists; split; [reflexivity|].
        cbn. rewrite get_del_other by exact H3. exact K2.
    + apply X; try reflexivity. intros i o H1 H2 H3. apply (l_h _ H _ _ H1 H2 Logic.I).
  - destruct (up s) eqn:U; [|exact H]. unfold get_field. destruct (get sid (by_sid s)) as [c|] eqn:G; [|exact H].
    destruct (get ioid (by_ioid s)) eqn:G2; [exact H|]. cbn zeta.
    destruct (w_sid _ Hw _ _ (get_in _ _ _ G)) as (ch & C & _). rewrite C.
    pose proof (L_add (new_op Info Executing c ioid) s ch U G2 C H) as A. destruct (c_onop ch); [exact A|].
    pose proof (L_info_reply (length (objs s)) false _ A) as B. destruct (info_reply _ _ _); exact B.
  - destruct (is_info i s); [apply L_info_reply; exact H|exact H].
  - destruct (up s); [apply L_conn_cleanup; exact H|exact H].
  - destruct (up s); [apply L_conn_cleanup; exact H|exact H].
Qed.
Lemma L_new : L new_conn.
Proof. split; intros i o H; destruct i; discriminate. Qed.
Lemma WL_run : forall tr s, W s -> L s -> W (fst (run s tr)) /\ L (fst (run s tr)).
Proof.
  induction tr as [|e tr IH]; intros s A B; cbn [run]; [auto|].
  pose proof (W_step s e A) as A1. pose proof (L_step s e A B) as B1. destruct (step s e) as [s1 o1]. cbn [fst] in *.
  specialize (IH s1 A1 B1). destruct (run s1 tr). exact IH.
Qed.
Lemma WL_reach : forall tr, W (fst (run new_conn tr)) /\ L (fst (run new_conn tr)).
Proof. intros tr. apply WL_run; [apply W_new|apply L_new]. Qed.
