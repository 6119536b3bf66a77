(** Proofs about channels: their identifiers and the callback when they are closed. *)
From Coq Require Import List Bool Arith NArith Lia ZifyBool ZifyNat ZifyN.
From Verif Require Import ServerOpModel ServerOpSpec ServerOpProofs ServerOpProofs2.
Import ListNotations.

Definition mt (ch : chan) : bool * bool := (c_open ch, c_close ch).
Definition meta (s : conn) : list (bool * bool) := map mt (chans s).
Definition nocb (o : output) : bool := match o with ChanCloseCb _ | SentCreate _ (Some _) | Claimed _ _ => false | _ => true end.
Definition still (s : conn) (r : conn * list output) : Prop :=
  meta (fst r) = meta s /\ by_sid (fst r) = by_sid s /\ forallb nocb (snd r) = true.
Lemma still_refl : forall s l, forallb nocb l = true -> still s (s, l).
Proof. intros. repeat split; assumption. Qed.
Lemma still_seq : forall s s1 o1 s2 o2, still s (s1, o1) -> still s1 (s2, o2) -> still s (s2, o1 ++ o2).
Proof.
  intros s s1 o1 s2 o2 (A & B & C) (D & E & F). cbn [fst snd] in *. split; [cbn [fst]; congruence|]. split; [cbn [fst]; congruence|]. cbn [snd].
  rewrite forallb_app, C, F. reflexivity.
Qed.
Lemma map_upd : forall A B (f : A -> B) l i x, map f (upd i x l) = upd i (f x) (map f l).
Proof. induction l as [|a l IH]; intros [|i] x; cbn; try reflexivity. rewrite IH. reflexivity. Qed.
Lemma upd_id : forall A (l : list A) i x, nth_error l i = Some x -> upd i x l = l.
Proof. induction l as [|a l IH]; intros [|i] x H; cbn in *; try discriminate; [congruence|]. rewrite IH by exact H. reflexivity. Qed.
Lemma meta_with_ops : forall m c ch s, nth_error (chans s) c = Some ch -> meta (set_chan c (with_ops m ch) s) = meta s.
Proof.
  intros. unfold meta. cbn [set_chan chans]. rewrite map_upd. apply upd_id. rewrite nth_error_map, H. reflexivity.
Qed.
Lemma meta_forget : forall c k s, meta (chan_forget c k s) = meta s /\ by_sid (chan_forget c k s) = by_sid s.
Proof. intros. unfold chan_forget. destruct (nth_error (chans s) c) eqn:E; [|auto]. split; [apply meta_with_ops; exact E|reflexivity]. Qed.
Lemma still_op_cleanup : forall i s, still s (op_cleanup i s).
Proof.
  intros. unfold op_cleanup. destruct (nth_error (objs s) i) as [o|]; [|apply still_refl; reflexivity].
  destruct (meta_forget (o_chan o) (o_ioid o) (set_op i (dead o) s)) as (A & B).
  destruct (o_st o); (split; [exact A || reflexivity|split; [exact B || reflexivity|]]); cbn [snd]; try reflexivity;
    destruct (o_close o); try destruct (o_cancel o); reflexivity.
Qed.
Lemma still_ops_cleanup : forall l s, still s (ops_cleanup l s).
Proof.
  induction l as [|[k j] l IH]; intros s; cbn [ops_cleanup]; [apply still_refl; reflexivity|].
  pose proof (still_op_cleanup j s) as A. destruct (op_cleanup j s) as [s1 o1]. specialize (IH s1). destruct (ops_cleanup l s1) as [s2 o2].
  eapply still_seq; eassumption.
Qed.
Lemma still_gpr : forall j h v s, still s (gpr_reply j h v s).
Proof.
  intros. unfold gpr_reply. destruct (nth_error (objs s) j) as [o|]; [|apply still_refl; reflexivity]. destruct (_ && _); [|apply still_refl; reflexivity].
  destruct (o_st o); try (apply still_refl; reflexivity); destruct v as [r|]; try destruct (reply_ok o r); (split; [reflexivity|split; reflexivity]).
Qed.
Lemma still_info : forall j ok s, still s (info_reply j ok s).
Proof.
  intros. unfold info_reply. destruct (nth_error (objs s) j) as [o|]; [|apply still_refl; reflexivity]. destruct (_ && _); [|apply still_refl; reflexivity].
  destruct (o_st o); try (apply still_refl; reflexivity). cbn zeta.
  match goal with |- context [chan_forget ?c ?k ?x] => destruct (meta_forget c k x) as (A & B) end.
  split; [exact A|split; [exact B|reflexivity]].
Qed.
Lemma still_add : forall o s, meta (add_op o s) = meta s /\ by_sid (add_op o s) = by_sid s.
Proof.
  intros. unfold add_op. destruct (nth_error (chans s) (o_chan o)) as [ch|] eqn:E; [|split; reflexivity].
  split; [|reflexivity]. unfold meta. cbn [set_chan chans]. rewrite map_upd. apply upd_id. rewrite nth_error_map. cbn [chans]. rewrite E. reflexivity.
Qed.

(** ** Closing a channel *)
Lemma chan_cleanup_cases : forall c s, still s (chan_cleanup c s) /\ (forall b, nth_error (meta s) c <> Some (true, b)) \/
  exists b o1, nth_error (meta s) c = Some (true, b) /\ meta (fst (chan_cleanup c s)) = upd c (false, false) (meta s) /\
    by_sid (fst (chan_cleanup c s)) = by_sid s /\ snd (chan_cleanup c s) = o1 ++ (if b then [ChanCloseCb c] else []) /\ forallb nocb o1 = true.
Proof.
  intros. unfold chan_cleanup. unfold meta at 1 2. rewrite nth_error_map. destruct (nth_error (chans s) c) as [ch|] eqn:E.
  - cbn [option_map]. unfold mt at 1 2. destruct (c_open ch) eqn:O.
    + right. exists (c_close ch). match goal with |- context [ops_cleanup ?l ?x] => pose proof (still_ops_cleanup l x) as (A & B & C); destruct (ops_cleanup l x) as [s1 o1] end.
      cbn [fst snd] in *. exists o1. repeat split; try assumption. rewrite A. unfold meta. cbn [set_chan chans]. rewrite map_upd. reflexivity.
    + left. split; [apply still_refl; reflexivity|]. intros b H. discriminate.
  - left. split; [apply still_refl; reflexivity|]. intros b H. discriminate.
Qed.
Lemma NoDup_app_new : forall (l : list N) x, NoDup l -> ~ In x l -> NoDup (l ++ [x]).
Proof.
  induction l as [|a l IH]; intros x H N; cbn; [repeat constructor; auto|]. inversion H; subst. constructor.
  - rewrite in_app_iff. cbn. intros [Q|[Q|[]]]; [contradiction|]. apply N. left; auto.
  - apply IH; [assumption|]. intros Q; apply N; right; exact Q.
Qed.
Definition b2n (b : bool) : nat := if b then 1 else 0.
(** what the callback owes: [m] as [meta], [l] what was seen *)
Definition owed (m : list (bool * bool)) (l : list output) : Prop := forall c,
  match nth_error m c with
  | None => count (is_chan_close c) l = 0 /\ forall b, ~ In (Claimed c b) l
  | Some (o, b) => (exists b0, In (Claimed c b0) l) /\
      (In (Claimed c true) l <-> count (is_chan_close c) l + b2n b = 1) /\ count (is_chan_close c) l + b2n b <= 1 /\ (o = false -> b = false)
  end.
Lemma nocb_close : forall c l, forallb nocb l = true -> count (is_chan_close c) l = 0 /\ (forall b, ~ In (Claimed c b) l) /\ sids l = [].
Proof.
  intros c. induction l as [|o l IH]; cbn [forallb]; [intros _; repeat split; auto|]. intros H. apply andb_prop in H as (A & B).
  destruct (IH B) as (C & D & E). unfold count in *. cbn [filter]. destruct o; cbn in A; try discriminate; cbn [is_chan_close sids];
    try (destruct sid; [discriminate|]); (split; [exact C|split; [intros b [X|X]; [discriminate|exact (D b X)]|exact E]]).
Qed.
Lemma owed_app : forall m l l', owed m l -> forallb nocb l' = true -> owed m (l ++ l').
Proof.
  intros m l l' H N c. specialize (H c). destruct (nocb_close c l' N) as (A & B & _). rewrite count_app, A, Nat.add_0_r.
  assert (X : forall b, In (Claimed c b) (l ++ l') <-> In (Claimed c b) l).
  { intros b. rewrite in_app_iff. split; [intros [?|?]; [assumption|exfalso; eapply B; eassumption]|auto]. }
  destruct (nth_error m c) as [[o b]|].
  - destruct H as ((b0 & H0) & H1 & H2). rewrite X. split; [exists b0; apply X; exact H0|]. auto.
  - destruct H as (H1 & H2). split; [exact H1|]. intros b Q. apply X in Q. exact (H2 b Q).
Qed.
Lemma sids_app : forall a b, sids (a ++ b) = sids a ++ sids b.
Proof. induction a as [|x a IH]; intros b; [reflexivity|]. cbn. destruct x; try apply IH. destruct sid; [cbn; f_equal; apply IH|apply IH]. Qed.
Definition shut (s : conn) (c : nat) : Prop := exists b, nth_error (meta s) c = Some (false, b).
Lemma owed_chan_cleanup : forall c s l, owed (meta s) l ->
  owed (meta (fst (chan_cleanup c s))) (l ++ snd (chan_cleanup c s)) /\ sids (snd (chan_cleanup c s)) = [] /\
  by_sid (fst (chan_cleanup c s)) = by_sid s /\ length (chans (fst (chan_cleanup c s))) = length (chans s) /\
  (forall d, shut s d -> shut (fst (chan_cleanup c s)) d) /\ (c < length (chans s) -> shut (fst (chan_cleanup c s)) c).
Proof.
  intros c s l H. destruct (chan_cleanup_cases c s) as [((A & B & C) & D)|(b & o1 & A & B & C & D & E)].
  - assert (LEN : length (chans (fst (chan_cleanup c s))) = length (chans s)).
    { pose proof (f_equal (@length _) A) as X. unfold meta in X. rewrite !map_length in X. exact X. }
    split; [rewrite A; apply owed_app; assumption|]. split; [apply (nocb_close 0 _ C)|]. split; [exact B|]. split; [exact LEN|].
    unfold shut. rewrite A. split; [auto|]. intros N. unfold meta in *. rewrite <- (map_length mt) in N. apply nth_error_Some in N.
    destruct (nth_error (map mt (chans s)) c) as [[[|] x]|] eqn:E; [destruct (D x eq_refl)|exists x; reflexivity|congruence].
  - assert (LEN : length (chans (fst (chan_cleanup c s))) = length (chans s)).
    { pose proof (f_equal (@length _) B) as X. unfold meta in X. rewrite upd_length, !map_length in X. exact X. }
    rewrite B, D, sids_app, app_assoc. split.
    + intros d. pose proof (owed_app _ _ _ H E d) as Q. rewrite (nth_upd _ _ _ _ _ _ A). rewrite count_app.
      assert (Z : forall b1, In (Claimed d b1) ((l ++ o1) ++ (if b then [ChanCloseCb c] else [])) <-> In (Claimed d b1) (l ++ o1)).
      { intros b1. rewrite (in_app_iff (l ++ o1)). destruct b; cbn; intuition discriminate. }
      destruct (Nat.eqb_spec d c) as [->|N].
      * rewrite A in Q. destruct Q as ((b0 & Q0) & Q1 & Q2 & Q3). rewrite Z. split; [exists b0; apply Z; exact Q0|].
        assert (CC : count (is_chan_close c) (if b then [ChanCloseCb c] else []) = b2n b) by (destruct b; unfold count; cbn; rewrite ?Nat.eqb_refl; reflexivity).
        rewrite CC. cbn [b2n] in *. rewrite !Nat.add_0_r. auto.
      * assert (CC : count (is_chan_close d) (if b then [ChanCloseCb c] else []) = 0).
        { destruct b; unfold count; cbn; [|reflexivity]. destruct (Nat.eqb_spec c d); [congruence|reflexivity]. }
        rewrite CC, Nat.add_0_r. destruct (nth_error (meta s) d) as [[x y]|].
        -- destruct Q as ((b0 & Q0) & Q1 & Q2 & Q3). rewrite Z. split; [exists b0; apply Z; exact Q0|]. auto.
        -- destruct Q as (Q1 & Q2). split; [exact Q1|]. intros b1 X. apply Z in X. exact (Q2 _ X).
    + split; [rewrite (proj2 (proj2 (nocb_close 0 _ E))); destruct b; reflexivity|]. split; [exact C|]. split; [exact LEN|].
      unfold shut. rewrite B. split.
      * intros d (x & X). rewrite (nth_upd _ _ _ _ _ _ A). destruct (Nat.eqb_spec d c); [exists false; reflexivity|exists x; exact X].
      * intros _. rewrite (nth_upd _ _ _ _ _ _ A), Nat.eqb_refl. exists false; reflexivity.
Qed.
Lemma owed_chans_cleanup : forall cs s l, owed (meta s) l ->
  owed (meta (fst (chans_cleanup cs s))) (l ++ snd (chans_cleanup cs s)) /\ sids (snd (chans_cleanup cs s)) = [] /\
  length (chans (fst (chans_cleanup cs s))) = length (chans s) /\
  (forall d, shut s d -> shut (fst (chans_cleanup cs s)) d) /\
  (forall c, c < length (chans s) -> holds c cs = true -> shut (fst (chans_cleanup cs s)) c).
Proof.
  induction cs as [|[k c] cs IH]; intros s l H; cbn [chans_cleanup].
  { cbn [fst snd sids]. rewrite app_nil_r. split; [exact H|]. split; [reflexivity|]. split; [reflexivity|]. split; [auto|]. intros c _ X; discriminate X. }
  destruct (owed_chan_cleanup c s l H) as (A & B & _ & C & D & E). destruct (chan_cleanup c s) as [s1 o1]. cbn [fst snd] in *.
  destruct (IH s1 _ A) as (A' & B' & C' & D' & E'). destruct (chans_cleanup cs s1) as [s2 o2]. cbn [fst snd] in *.
  rewrite sids_app, B, B', app_assoc. split; [exact A'|]. split; [reflexivity|]. split; [congruence|]. split; [intros d X; apply D', D, X|].
  intros d N X. cbn in X. apply orb_prop in X as [X|X].
  - apply Nat.eqb_eq in X. cbn in X. subst d. apply D', E, N.
  - apply E'; [lia|exact X].
Qed.
Record K (s : conn) (l : list output) : Prop := {
  k_owed : owed (meta s) l;
  k_sids : NoDup (sids l);
  k_in : up s = true -> forall x, In x (sids l) -> In x (map fst (by_sid s));
  k_all : up s = true -> forall c, c < length (chans s) -> holds c (by_sid s) = true;
  k_down : up s = false -> forall c, c < length (chans s) -> shut s c;
  k_len : (N.of_nat (length (by_sid s)) <= 4294967295)%N
}.
Lemma K_conn_cleanup : forall s l, up s = true -> K s l -> K (fst (conn_cleanup s)) (l ++ snd (conn_cleanup s)).
Proof.
  intros s l U [A B C D E F]. pose proof (conn_cleanup_up s) as UP. pose proof (h_sid _ _ (shr_conn_cleanup s)) as SI.
  unfold conn_cleanup in *. fold (emptied s) in *. cbn zeta in *.
  destruct (still_ops_cleanup (by_ioid s) (emptied s)) as (M & S1 & N). destruct (ops_cleanup (by_ioid s) (emptied s)) as [s1 o1]. cbn [fst snd] in *.
  assert (O1 : owed (meta s1) (l ++ Down :: o1)) by (rewrite M; apply owed_app; [exact A|exact N]).
  assert (L1 : length (chans s1) = length (chans s)) by (pose proof (f_equal (@length _) M) as X; unfold meta in X; rewrite !map_length in X; exact X).
  destruct (owed_chans_cleanup (by_sid s) s1 _ O1) as (A' & B' & C' & D' & E'). destruct (chans_cleanup (by_sid s) s1) as [s2 o2]. cbn [fst snd] in *.
  split.
  - rewrite <- app_assoc in A'. exact A'.
  - rewrite sids_app. cbn [sids]. rewrite sids_app, B', (proj2 (proj2 (nocb_close 0 _ N))), !app_nil_r. exact B.
  - congruence.
  - congruence.
  - intros _ c X. apply E'; [lia|]. apply D; [exact U|lia].
  - rewrite SI. cbn. lia.
Qed.
Lemma K_still : forall s l r, (up s = true -> up (fst r) = true) -> (up s = false -> up (fst r) = false) -> still s r -> K s l -> K (fst r) (l ++ snd r).
Proof.
  intros s l [s' o] U1 U2 (M & S1 & N) [A B C D E F]. cbn [fst snd] in *.
  assert (L1 : length (chans s') = length (chans s)) by (pose proof (f_equal (@length _) M) as X; unfold meta in X; rewrite !map_length in X; exact X).
  assert (U : up s' = up s) by (destruct (up s); auto).
  split.
  - rewrite M. apply owed_app; assumption.
  - rewrite sids_app, (proj2 (proj2 (nocb_close 0 _ N))), app_nil_r. exact B.
  - rewrite U, sids_app, (proj2 (proj2 (nocb_close 0 _ N))), app_nil_r, S1. exact C.
  - rewrite U, L1, S1. exact D.
  - rewrite U, L1. unfold shut. rewrite M. exact E.
  - rewrite S1. exact F.
Qed.
Lemma del_length : forall k m, length (del k m) <= length m.
Proof. intros. unfold del. induction m as [|a m IH]; [apply le_n|]. cbn. destruct (negb _); cbn; lia. Qed.
Lemma K_create : forall cid h s l, W s -> up s = true -> K s l -> K (fst (create cid h s)) (l ++ snd (create cid h s)).
Proof.
  intros cid h s l Hw U H. unfold create. destruct (N.eqb_spec (N.of_nat (length (by_sid s))) 4294967295) as [_|NE].
  { apply (K_still s l (s, _)); auto; repeat split. }
  pose proof (k_len _ _ H) as LE.
  destruct (fresh_spec (next_sid s) (map fst (by_sid s)) (w_next _ Hw)) as (id & F & NI & _). { rewrite map_length. unfold W32. lia. }
  rewrite F. destruct h as [[[hop hrpc] hc]|]; [|apply (K_still s l (_, _)); auto; repeat split].
  destruct H as [A B C D E G]. cbn [fst snd]. split.
  - intros c. unfold meta. cbn [chans]. rewrite map_app. cbn [map]. rewrite nth_app_new, map_length. rewrite count_app.
    assert (Z : forall b1 l', In (Claimed c b1) (l ++ [SentCreate cid (Some id); Claimed l' hc]) <-> In (Claimed c b1) l \/ (c = l' /\ b1 = hc)).
    { intros. rewrite in_app_iff. cbn. split.
      - intros [Q|[Q|[Q|[]]]]; [auto|discriminate|]. injection Q as -> ->. auto.
      - intros [Q|(-> & ->)]; auto. }
    specialize (A c). unfold meta in A. change (count (is_chan_close c) [SentCreate cid (Some id); Claimed (length (chans s)) hc]) with 0. rewrite Nat.add_0_r.
    destruct (Nat.eqb_spec c (length (chans s))) as [->|N].
    + assert (X : nth_error (map mt (chans s)) (length (chans s)) = None) by (apply nth_error_None; rewrite map_length; lia). rewrite X in A. destruct A as (A1 & A2).
      unfold mt. cbn [c_open c_close]. split; [exists hc; apply Z; auto|]. rewrite Z, A1. cbn [plus]. split; [|split; [destruct hc; cbn; lia|discriminate]].
      split; [intros [Q|(_ & <-)]; [destruct (A2 _ Q)|reflexivity]|]. intros Q. right. destruct hc; [auto|discriminate].
    + destruct (nth_error (map mt (chans s)) c) as [[o b]|].
      * destruct A as ((b0 & A0) & A1 & A2). split; [exists b0; apply Z; auto|]. rewrite Z, <- A1. split; [|exact A2]. split; [intros [Q|(Q & _)]; [exact Q|contradiction]|auto].
      * destruct A as (A1 & A2). split; [exact A1|]. intros b Q. apply Z in Q as [Q|(Q & _)]; [exact (A2 _ Q)|contradiction].
  - rewrite sids_app. cbn [sids]. apply NoDup_app_new; [exact B|]. intros Q. apply NI. apply C; assumption.
  - intros _ x Q. rewrite sids_app in Q. cbn [sids] in Q. cbn [by_sid put map fst]. apply in_app_iff in Q as [Q|[<-|[]]]; [|left; reflexivity].
    specialize (C U x Q). right. apply in_map_iff in C as (e & X1 & X2). apply in_map_iff. exists e. split; [exact X1|]. apply in_del. split; [exact X2|].
    intros Y. apply NI. rewrite <- Y. apply in_map. exact X2.
  - intros _ c Q. cbn [chans by_sid] in *. rewrite app_length in Q. cbn in Q. cbn [put holds existsb snd]. destruct (Nat.eqb_spec (length (chans s)) c) as [|N]; [reflexivity|].
    cbn [orb]. specialize (D U c ltac:(lia)). apply holds_in in D as (k & D). apply holds_in. exists k. apply in_del. split; [exact D|].
    intros Y. apply NI. cbn in Y. subst k. apply in_map_iff. exists (id, c). auto.
  - cbn [up]. congruence.
  - cbn [by_sid put length]. pose proof (del_length id (by_sid s)). lia.
Qed.
Lemma K_step : forall s l e, W s -> K s l -> K (fst (step s e)) (l ++ snd (step s e)).
Proof.
  intros s l e Hw H. assert (Z : K (fst (s, [] : list output)) (l ++ snd (s, [] : list output))) by (cbn; rewrite app_nil_r; exact H).
  assert (ST : forall r, still s r -> up (fst r) = up s -> K (fst r) (l ++ snd r)) by (intros r A B; apply (K_still s l r); congruence || assumption).
  assert (FN : forall f out i, forallb nocb out = true -> K (fst (set_fn f out i s)) (l ++ snd (set_fn f out i s))).
  { intros f out i F. unfold set_fn. destruct (nth_error (objs s) i) as [o|]; [|exact Z]. destruct (alive s i o); [|exact Z].
    apply ST; [|reflexivity]. split; [reflexivity|split; [reflexivity|exact F]]. }
  assert (GP : forall i h v, K (fst (gpr_reply i h v s)) (l ++ snd (gpr_reply i h v s))).
  { intros i h v. apply ST; [apply still_gpr|apply gpr_frame]. }
  assert (CH : forall c x, forallb nocb x = true -> K (fst (chan_cleanup c s)) (l ++ x ++ snd (chan_cleanup c s)) /\ K (fst (chan_cleanup c s)) (l ++ snd (chan_cleanup c s) ++ x)).
  { intros c x N. destruct H as [A B C D E F]. pose proof (h_up _ _ (shr_chan_cleanup c s)) as U.
    split.
    - destruct (owed_chan_cleanup c s (l ++ x) (owed_app _ _ _ A N)) as (A' & B' & C' & D' & E' & _). split.
      + rewrite app_assoc. exact A'.
      + rewrite !sids_app, B', (proj2 (proj2 (nocb_close 0 _ N))), !app_nil_r. exact B.
      + rewrite U, !sids_app, B', (proj2 (proj2 (nocb_close 0 _ N))), !app_nil_r, C'. exact C.
      + rewrite U, C', D'. exact D.
      + rewrite U, D'. intros Q d M. apply E', E; assumption.
      + rewrite C'. exact F.
    - destruct (owed_chan_cleanup c s l A) as (A' & B' & C' & D' & E' & _). split.
      + rewrite app_assoc. apply owed_app; assumption.
      + rewrite !sids_app, B', (proj2 (proj2 (nocb_close 0 _ N))), !app_nil_r. exact B.
      + rewrite U, !sids_app, B', (proj2 (proj2 (nocb_close 0 _ N))), !app_nil_r, C'. exact C.
      + rewrite U, C', D'. exact D.
      + rewrite U, D'. intros Q d M. apply E', E; assumption.
      + rewrite C'. exact F. }
  destruct e; cbn [step].
  - destruct (up s) eqn:U; [|exact Z]. apply K_create; assumption.
  - destruct (up s) eqn:U; [|exact Z]. unfold destroy_chan. destruct (get sid (by_sid s)) as [c|]; [|exact Z].
    destruct (CH c [SentDestroy sid cid] eq_refl) as (Q & Q2). destruct (chan_cleanup c s). first [exact Q|exact Q2].
  - unfold close_chan. destruct (chan_alive s c); [|exact Z]. destruct (nth_error (chans s) c) as [ch|]; [|exact Z].
    destruct (CH c (if up s && c_open ch then [SentDestroy (c_sid ch) (c_cid ch)] else [])) as (Q & Q2); [destruct (_ && _); reflexivity|].
    destruct (chan_cleanup c s). first [exact Q|exact Q2].
  - assert (X : up s = true -> K (fst (init k sid ioid s)) (l ++ snd (init k sid ioid s))).
    { intros U. unfold init. destruct (get sid (by_sid s)) as [c|]; [|apply K_conn_cleanup; assumption].
      destruct (get ioid (by_ioid s)); [apply K_conn_cleanup; assumption|]. cbn zeta.
      destruct (still_add (new_op k Creating c ioid) s) as (A1 & A2). pose proof (up_add (new_op k Creating c ioid) s) as A3.
      destruct k; try (apply ST; [split; [exact A1|split; [exact A2|reflexivity]]|exact A3]).
      pose proof (still_gpr (length (objs s)) 0 (Some NoValue) (add_op (new_op Rpc Creating c ioid) s)) as G.
      pose proof (gpr_frame (length (objs s)) 0 (Some NoValue) (add_op (new_op Rpc Creating c ioid) s)) as (G2 & _).
      destruct (gpr_reply _ _ _ _) as [s2 o2]. cbn [fst] in G2. apply ST; [|cbn [fst]; congruence].
      apply (still_seq s (add_op (new_op Rpc Creating c ioid) s) [Opened (length (objs s))]); [|exact G]. split; [exact A1|split; [exact A2|reflexivity]]. }
    destruct k; try exact Z; (destruct (up s); [apply X; reflexivity|exact Z]).
  - destruct (is_info i s); [exact Z|]. unfold connect. destruct (nth_error (objs s) i) as [o|] eqn:E; [|exact Z]. destruct (alive s i o); [|exact Z].
    assert (T : still s (set_op i (with_typed o) s, [])) by (split; [reflexivity|split; reflexivity]).
    assert (A : K (fst (gpr_reply i 0 (Some NoValue) (set_op i (with_typed o) s))) (l ++ snd (gpr_reply i 0 (Some NoValue) (set_op i (with_typed o) s)))).
    { apply ST; [|exact (proj1 (gpr_frame i 0 (Some NoValue) (set_op i (with_typed o) s)))]. exact (still_gpr i 0 (Some NoValue) (set_op i (with_typed o) s)). }
    pose proof (ST _ T eq_refl) as B. pose proof (GP i 0 (Some NoValue)) as C.
    destruct (o_st o), (o_kind o), proto, (o_typed o), mask; assumption.
  - destruct (nth_error (objs s) i) as [o|]; [|exact Z]. destruct (o_st o), (o_kind o); apply GP || exact Z.
  - apply FN; reflexivity.
  - apply FN; reflexivity.
  - apply FN; reflexivity.
  - apply FN; reflexivity.
  - assert (X : up s = true -> K (fst (exec k ioid want last s)) (l ++ snd (exec k ioid want last s))).
    { intros U. pose proof (K_conn_cleanup s l U H) as CC. unfold exec. destruct (get ioid (by_ioid s)) as [j|]; [|exact Z]. destruct (nth_error (objs s) j) as [o|] eqn:E; [|exact Z].
      destruct (o_st o) eqn:S; [destruct (o_kind o); exact CC| | |exact Z];
        (destruct (o_kind o); try exact CC);
        (destruct (match k with Rpc => _ | _ => _ end); [exact CC|]);
        (destruct (nth_error (chans s) (o_chan o)) as [ch|]; [|exact Z]); try exact Z;
        (apply ST; [split; [reflexivity|split; reflexivity]|reflexivity]). }
    destruct k; try exact Z; (destruct (up s); [apply X; reflexivity|exact Z]).
  - destruct (is_info i s); [exact Z|apply GP].
  - destruct (is_info i s); [exact Z|apply GP].
  - destruct (up s) eqn:U; [|exact Z]. unfold cancel. destruct (get ioid (by_ioid s)) as [j|]; [|exact Z]. destruct (nth_error (objs s) j) as [o|] eqn:E; [|exact Z].
    destruct (nth_error (chans s) (o_chan o)) as [ch|]; [|exact Z]. destruct (_ && _); [|exact Z]. destruct (o_st o) eqn:S; try exact Z.
    apply ST; [|exact U]. split; [reflexivity|split; [reflexivity|]]. cbn [snd]. destruct (o_cancel o); reflexivity.
  - destruct (up s) eqn:U; [|exact Z]. unfold destroy_req. cbn zeta.
    destruct (get ioid (by_ioid s)) as [j|] eqn:G; [|destruct (get sid (by_sid s)); exact Z].
    destruct (get sid (by_sid s)) as [c|].
    + destruct (meta_forget c ioid s) as (M1 & M2). apply ST.
      * destruct (still_op_cleanup j (set_ioids (del ioid (by_ioid (chan_forget c ioid s))) (chan_forget c ioid s))) as (A1 & A2 & A3).
        split; [rewrite A1; exact M1|split; [rewrite A2; exact M2|exact A3]].
      * rewrite (h_up _ _ (shr_op_cleanup _ _)). rewrite <- U. apply (h_up _ _ (shr_chan_forget c ioid s)).
    + apply ST.
      * exact (still_op_cleanup j (set_ioids (del ioid (by_ioid s)) s)).
      * rewrite (h_up _ _ (shr_op_cleanup _ _)). exact U.
  - destruct (up s) eqn:U; [|exact Z]. unfold get_field. destruct (get sid (by_sid s)) as [c|] eqn:G; [|exact Z].
    destruct (get ioid (by_ioid s)) eqn:G2; [exact Z|]. cbn zeta.
    destruct (w_sid _ Hw _ _ (get_in _ _ _ G)) as (ch & C & _). rewrite C.
    destruct (still_add (new_op Info Executing c ioid) s) as (A1 & A2). pose proof (up_add (new_op Info Executing c ioid) s) as A3.
    destruct (c_onop ch). { apply ST; [split; [exact A1|split; [exact A2|reflexivity]]|rewrite <- U; exact A3]. }
    pose proof (still_info (length (objs s)) false (add_op (new_op Info Executing c ioid) s)) as I.
    pose proof (info_frame (length (objs s)) false (add_op (new_op Info Executing c ioid) s)) as (I2 & _).
    destruct (info_reply _ _ _) as [s2 o2]. cbn [fst] in I2. apply ST; [|cbn [fst]; congruence].
    apply (still_seq s (add_op (new_op Info Executing c ioid) s) [Opened (length (objs s))]); [|exact I]. split; [exact A1|split; [exact A2|reflexivity]].
  - destruct (is_info i s); [apply ST; [apply still_info|apply info_frame]|exact Z].
  - destruct (up s) eqn:U; [apply K_conn_cleanup; assumption|exact Z].
  - destruct (up s) eqn:U; [apply K_conn_cleanup; assumption|exact Z].
Qed.
Lemma K_new : K new_conn [].
Proof.
  split; try discriminate; try (intros; cbn in *; lia).
  - intros c. unfold meta. cbn. destruct c; cbn; auto.
  - constructor.
Qed.
Lemma K_run : forall tr s l, W s -> K s l -> K (fst (run s tr)) (l ++ snd (run s tr)).
Proof.
  induction tr as [|e tr IH]; intros s l A B; cbn [run]; [cbn; rewrite app_nil_r; exact B|].
  pose proof (W_step s e A) as A1. pose proof (K_step s l e A B) as B1. destruct (step s e) as [s1 o1]. cbn [fst snd] in *.
  specialize (IH s1 _ A1 B1). destruct (run s1 tr). cbn [fst snd] in *. rewrite app_assoc. exact IH.
Qed.
Lemma K_reach : forall tr, K (fst (run new_conn tr)) (snd (run new_conn tr)).
Proof. intros tr. exact (K_run tr new_conn [] W_new K_new). Qed.
