(** Links: a turn of the worker keeps the invariants, and what it does. *)
From Coq Require Import String ZArith List Bool Arith Lia Sorted.
From Verif Require Import Base BaseProofs WireModel TypeModel TextModel CopyModel GroupModel LinkModel LinkSpec LinkProofs2 LinkProofs3.
Import ListNotations.
Local Open Scope nat_scope.

Lemma latest_snoc es e : latest (es ++ [e]) = see (latest es) e.
Proof. unfold latest. rewrite fold_left_app. reflexivity. Qed.
Lemma same_merge v w u : same v w -> exists z, see (Some w) (MUpdate u) = Some z /\ same (merge v u) z.
Proof.
  intros S. eexists. split; [reflexivity|]. intros p. unfold merge. cbn. rewrite (S p). destruct (w p) as [n|]; [|reflexivity].
  destruct (up_marked u p); [|reflexivity]. destruct (up_img u p); reflexivity.
Qed.
Lemma merge_none v u p : merge v u p = None <-> v p = None.
Proof. unfold merge. destruct (v p); [|tauto]. destruct (up_marked u p); [destruct (up_img u p)|]; split; discriminate. Qed.
Lemma merge_code v u p n : v p = Some n -> exists m, merge v u p = Some m /\ nd_code m = nd_code n /\ nd_id m = nd_id n.
Proof. intros E. unfold merge. rewrite E. destruct (up_marked u p); [destruct (up_img u p)|]; eexists; split; try reflexivity; split; reflexivity. Qed.
Lemma nth_last {A} (r : list A) a : nth_error (r ++ [a]) (pred (length (r ++ [a]))) = Some a.
Proof. rewrite app_length. cbn. rewrite Nat.add_1_r. cbn. rewrite nth_error_app2 by lia. rewrite Nat.sub_diag. reflexivity. Qed.
Lemma type_change_merge k k' r v u l : k_roots k = r ++ [v] -> k_roots k' = r ++ [merge v u] -> type_change k' l = type_change k l.
Proof.
  intros E F. unfold type_change. rewrite E, F, !nth_last. rewrite !app_length. cbv zeta. cbn [length].
  assert (A : forall p (a : option ref), match merge v u p with Some _ => a | None => None end = match v p with Some _ => a | None => None end).
  { intros p a. destruct (v p) as [n|] eqn:N; [destruct (merge_code v u p n N) as (m & -> & _); reflexivity|]. apply (merge_none v u) in N. rewrite N. reflexivity. }
  destruct (v (path_of (cf_field (l_conf l)))) as [n|] eqn:N.
  - destruct (merge_code v u _ n N) as (m & -> & -> & _). destruct (nd_code n =? tc_Struct)%Z; [|reflexivity]. rewrite !A. reflexivity.
  - apply (merge_none v u) in N. rewrite N. reflexivity.
Qed.
Lemma type_change_twice k l : type_change k (type_change k l) = type_change k l.
Proof.
  unfold type_change. cbv zeta. set (i := match nth_error (k_roots k) _ with Some _ => _ | None => _ end). destruct (i (path_of (cf_field (l_conf l)))) as [n|] eqn:N.
  - destruct (nd_code n =? tc_Struct)%Z eqn:S; cbn [l_conf l_with_fld]; rewrite N, S; reflexivity.
  - cbn [l_conf l_with_fld]. rewrite N. reflexivity.
Qed.
Lemma type_change_conf k l : l_conf (type_change k l) = l_conf l /\ l_kind (type_change k l) = l_kind l /\ l_rec (type_change k l) = l_rec l /\ l_chan (type_change k l) = l_chan l.
Proof. unfold type_change. cbv zeta. destruct (_ : option node) as [n|]; [destruct (nd_code n =? tc_Struct)%Z|]; repeat split; reflexivity. Qed.
Lemma rescan_wanted x ls b : flat_map (fun p : nat * link => if Bool.eqb (cf_atomic (l_conf (snd p))) b then match scans (snd p) with Some ch => [(l_rec (snd p), ch)] | None => [] end else [])
    (all_links x ls) = wanted x b ls.
Proof.
  induction ls as [|i r IH]; [reflexivity|]. unfold all_links in *. unfold wanted. cbn [flat_map somes]. unfold wants at 1. destruct (x_links x i) as [l|].
  - cbn [app flat_map snd]. rewrite IH. unfold scans. destruct (l_kind l); [destruct (cf_proc (l_conf l))| |]; destruct (Bool.eqb _ b); reflexivity.
  - exact IH.
Qed.
Lemma rescan_eq x k : k_changed k = true \/ (k_atomic k = wanted x true (k_links k) /\ k_other k = wanted x false (k_links k)) ->
  rescan x k = k_with_scan (wanted x true (k_links k)) (wanted x false (k_links k)) k.
Proof.
  intros H. unfold rescan. destruct (k_changed k) eqn:E.
  - cbv zeta. rewrite !rescan_wanted. reflexivity.
  - destruct H as [H|[A B]]; [discriminate|]. rewrite <- A, <- B. destruct k; cbn in *. subst. reflexivity.
Qed.

(** what taking one event does to the channel and its links *)
Definition took (e : mev) (k : lchan) : lchan :=
  match e with
  | MUpdate u => if k_conn k then k_with_root (match rev (k_roots k) with i :: r => rev r ++ [merge i u] | [] => [] end) true k
                 else k_with_root (k_roots k ++ [up_img u]) true k
  | MDisconnect _ _ => k_with_put None (k_after k) (k_with_root (k_roots k) false k)
  | MError => k
  end.
Definition retyped (e : mev) (k : lchan) (i : nat) (l : link) : link :=
  if existsb (Nat.eqb i) (k_links k) then
    match e with
    | MUpdate _ => if k_conn k then l else type_change (took e k) l
    | MDisconnect s ns => l_with_put None None (l_with_snap (s, ns) (s_sevr l) (s_msg l) l)
    | MError => l
    end
  else l.
Lemma take_eq c e k x : 
  (forall j, x_chans (take c e k x) j = if Nat.eqb j c then Some (took e k) else x_chans x j) /\
  (forall i, x_links (take c e k x) i = option_map (retyped e k i) (x_links x i)) /\
  x_nc (take c e k x) = x_nc x /\ x_keys (take c e k x) = x_keys x /\ x_tasks (take c e k x) = x_tasks x /\ x_out (take c e k x) = x_out x /\
  x_recs (take c e k x) = x_recs x /\ x_running (take c e k x) = x_running x.
Proof.
  assert (K : forall i, x_links x i = option_map (fun l => l) (x_links x i)) by apply keep_id.
  unfold take, retyped. destruct e as [u|s ns|]; cbn [took]; [destruct (k_conn k)| |]; cbn.
  - split; [reflexivity|]. split; [|repeat split; reflexivity]. intros i. destruct (existsb _ _), (x_links x i); reflexivity.
  - split; [reflexivity|]. split; [|repeat split; reflexivity]. intros i. destruct (existsb _ _), (x_links x i); reflexivity.
  - split; [reflexivity|]. split; [|repeat split; reflexivity]. intros i. destruct (existsb _ _), (x_links x i); reflexivity.
  - split; [reflexivity|]. split; [|repeat split; reflexivity]. intros i. destruct (existsb _ _), (x_links x i); reflexivity.
Qed.
Lemma retyped_conf e k i l : l_conf (retyped e k i l) = l_conf l /\ l_kind (retyped e k i l) = l_kind l /\ l_rec (retyped e k i l) = l_rec l /\ l_chan (retyped e k i l) = l_chan l.
Proof.
  unfold retyped. destruct (existsb _ _); [|repeat split; reflexivity]. destruct e as [u|s ns|]; [destruct (k_conn k)| |]; try (repeat split; reflexivity).
  apply type_change_conf.
Qed.
Lemma took_rest e k : k_key (took e k) = k_key k /\ k_open (took e k) = k_open k /\ k_events (took e k) = k_events k /\ k_notify (took e k) = k_notify k /\ k_links (took e k) = k_links k /\
  k_changed (took e k) = k_changed k /\ k_atomic (took e k) = k_atomic k /\ k_other (took e k) = k_other k.
Proof. unfold took. destruct e as [u|s ns|]; [destruct (k_conn k)| |]; repeat split; reflexivity. Qed.
Lemma existsb_in i l : existsb (Nat.eqb i) l = true <-> In i l.
Proof. rewrite existsb_exists. split; [intros (j & J & E); apply Nat.eqb_eq in E; subst; exact J|intros H; exists i; split; [exact H|apply Nat.eqb_refl]]. Qed.

Definition scanned (x : ctx) (is : list nat) : list out :=
  (if is_nil (map fst (wanted x true is)) then [] else [OLock (map fst (wanted x true is))] ++ flat_map (scan x) (wanted x true is) ++ [OUnlock (map fst (wanted x true is))])
  ++ flat_map (fun p => [OLock [fst p]] ++ scan x p ++ [OUnlock [fst p]]) (wanted x false is).
Lemma scan_treated x p : scan x p = treated x p.
Proof. destruct p as [r b]. reflexivity. Qed.
Lemma scanned_processing x is : scanned x is = processing x is.
Proof.
  unfold scanned, processing. f_equal.
  - destruct (wanted x true is) as [|p w]; [reflexivity|]. change (is_nil (map fst (p :: w))) with false. cbv iota. rewrite <- (flat_map_concat_map (treated x) (p :: w)). rewrite (flat_map_ext (scan x) (treated x)) by (intros; apply scan_treated). reflexivity.
  - rewrite <- flat_map_concat_map. apply flat_map_ext. intros p. rewrite scan_treated. reflexivity.
Qed.
Lemma treated_taken x p c : taken c (treated x p) = [].
Proof. unfold treated. destruct (_ && _); [reflexivity|]. destruct (r_pact _); reflexivity. Qed.
Lemma processing_taken x is c : taken c (processing x is) = [].
Proof.
  unfold processing. rewrite taken_app. 
  assert (A : forall w, taken c (concat (map (treated x) w)) = []).
  { induction w as [|p w IH]; [reflexivity|]. cbn. rewrite taken_app, treated_taken, IH. reflexivity. }
  assert (B : forall w, taken c (concat (map (fun p => [OLock [fst p]] ++ treated x p ++ [OUnlock [fst p]]) w)) = []).
  { induction w as [|p w IH]; [reflexivity|]. cbn [map concat]. rewrite !taken_app, treated_taken, IH. reflexivity. }
  rewrite B, app_nil_r. destruct (wanted x true is) as [|p w]; [reflexivity|]. rewrite !taken_app, A. reflexivity.
Qed.

(** the state after the worker has taken an event *)
Lemma run_chan_event c x k e r : inv x -> x_chans x c = Some k -> k_links k <> [] -> k_events k = e :: r ->
  let y := run_chan c x in let k' := k_with_events r (k_notify k) k in
  (forall j, x_chans y j = if Nat.eqb j c then Some (k_with_scan (wanted x true (k_links k)) (wanted x false (k_links k)) (took e k')) else x_chans x j) /\
  (forall i, x_links y i = option_map (retyped e k' i) (x_links x i)) /\
  x_nc y = x_nc x /\ x_keys y = x_keys x /\ x_tasks y = x_tasks x ++ [TRun c] /\ x_out y = x_out x ++ OEvent c e :: processing x (k_links k) /\
  x_recs y = x_recs x /\ x_running y = x_running x.
Proof.
  intros I E A EV. cbv zeta. unfold run_chan. rewrite E. unfold alive. destruct (k_links k) as [|a q] eqn:KL; [contradiction|]. cbn [is_nil negb]. rewrite EV.
  set (k' := k_with_events r (k_notify k) k). destruct (take_eq c e k' (emit [OEvent c e] x)) as (T1 & T2 & T3 & T4 & T5 & T6 & T7 & T8).
  set (x1 := take c e k' (emit [OEvent c e] x)) in *. assert (C1 : x_chans x1 c = Some (took e k')) by (rewrite T1, Nat.eqb_refl; reflexivity). rewrite C1.
  assert (W : forall b is, wanted x1 b is = wanted x b is).
  { intros b is. apply somes_ext. intros i _. unfold wants. rewrite T2. cbn [emit x_links]. destruct (x_links x i) as [l|]; [|reflexivity]. cbn [option_map]. destruct (retyped_conf e k' i l) as (-> & -> & -> & _). reflexivity. }
  destruct (took_rest e k') as (_ & _ & _ & _ & R5 & R6 & R7 & R8).
  assert (RS : rescan x1 (took e k') = k_with_scan (wanted x true (k_links k)) (wanted x false (k_links k)) (took e k')).
  { rewrite rescan_eq; [rewrite !W, R5; reflexivity|]. rewrite R5, R6, R7, R8, !W. change (k_changed k') with (k_changed k). destruct (k_changed k) eqn:CH; [left; reflexivity|right]. exact (i_scan _ I _ _ E CH). }
  cbv zeta. rewrite RS. cbn [k_atomic k_other k_with_scan].
  assert (P : processing x1 (a :: q) = processing x (a :: q)).
  { unfold processing. rewrite !W. assert (TR : forall p, treated x1 p = treated x p) by (intros p; unfold treated; rewrite T7; reflexivity).
    f_equal; [destruct (wanted x true (a :: q)); [reflexivity|]; rewrite (map_ext _ _ TR); reflexivity|]. f_equal. apply map_ext. intros p. rewrite TR. reflexivity. }
  pose proof (scanned_processing x1 (a :: q)) as SP. rewrite P in SP. unfold scanned in SP. rewrite !W in SP.
  cbn [x_chans x_links x_nc x_keys x_tasks x_out x_recs x_running set_tasks emit set_chan].
  rewrite KL. rewrite SP.
  split; [intros j; destruct (Nat.eqb j c) eqn:J; [reflexivity|rewrite T1, J; reflexivity]|]. split; [exact T2|]. split; [exact T3|]. split; [exact T4|]. split; [rewrite T5; reflexivity|].
  split; [rewrite T6; cbn [emit x_out]; rewrite <- app_assoc; reflexivity|]. split; [exact T7|exact T8].
Qed.

Lemma inv_drop c r x : inv x -> x_tasks x = TRun c :: r -> (forall k, x_chans x c = Some k -> k_links k = []) -> inv (set_tasks r x).
Proof.
  intros I T N. constructor; cbn; try apply I. intros d k E F. destruct (i_note _ I _ _ E F) as [A B]. split; [exact A|]. intros Q. specialize (B Q). rewrite T in B.
  destruct B as [B|B]; [|exact B]. injection B as ->. destruct (F (N _ E)).
Qed.
Lemma took_see e k w0 es : (if k_conn k then exists r v w, k_roots k = r ++ [v] /\ latest es = Some w /\ same v w else latest es = None) -> w0 = latest (es ++ [e]) ->
  if k_conn (took e k) then exists r v w, k_roots (took e k) = r ++ [v] /\ w0 = Some w /\ same v w else w0 = None.
Proof.
  intros S ->. rewrite latest_snoc. unfold took. destruct e as [u|s ns|].
  - destruct (k_conn k) eqn:K; cbn [k_conn k_with_root k_roots].
    + destruct S as (r & v & w & R & L & Q). rewrite L. destruct (same_merge v w u Q) as (z & Z1 & Z2). exists r, (merge v u), z. rewrite R, rev_app_distr. cbn. rewrite rev_involutive. repeat split; assumption.
    + rewrite S. exists (k_roots k), (up_img u), (up_img u). repeat split; reflexivity.
  - cbn. destruct (latest es); reflexivity.
  - destruct (k_conn k) eqn:K; [|rewrite S; reflexivity]. destruct S as (r & v & w & R & L & Q). rewrite L. exists r, v, w. repeat split; assumption.
Qed.
Lemma inv_work x : inv x -> inv (work x).
Proof.
  intros I. unfold work. destruct (x_tasks x) as [|[c|c] r] eqn:T; [exact I| |].
  2:{ eapply inv_core; [eapply core_trans; [|apply core_after_put]|exact I]. constructor; cbn; intros; try reflexivity. rewrite T. cbn. split; [tauto|]. intros [H|H]; [discriminate|exact H]. }
  destruct (x_chans x c) as [k|] eqn:E.
  2:{ assert (R : run_chan c (set_tasks r x) = set_tasks r x) by (unfold run_chan; cbn; rewrite E; reflexivity). rewrite R. eapply inv_drop; [exact I|exact T|]. intros k H. rewrite E in H. discriminate. }
  destruct (k_links k) as [|a q] eqn:KL.
  { assert (R : run_chan c (set_tasks r x) = set_tasks r x) by (unfold run_chan, alive; cbn; rewrite E, KL; reflexivity). rewrite R. eapply inv_drop; [exact I|exact T|]. intros k0 H. rewrite E in H. injection H as <-. exact KL. }
  destruct (k_events k) as [|e es] eqn:EV.
  { assert (R : run_chan c (set_tasks r x) = set_chan c (Some (k_with_events [] true k)) (set_tasks r x)) by (unfold run_chan, alive; cbn; rewrite E, KL, EV; reflexivity). rewrite R.
    onechan I E (k_with_events [] true k) (fun (_ : nat) (l : link) => l); try reflexivity.
    all: try (apply keep_id).
    all: try (intros i l; repeat split; reflexivity).
    all: try (intros F; exact (i_scan _ I _ _ E F)).
    all: try (exact (i_see _ I _ _ E)).
    all: try (intros i l H1 H2 H3; etransitivity; [|exact (i_fields _ I _ _ _ _ H1 H2 E H3)]; apply type_change_roots; reflexivity).
    - intros d N H. rewrite T in H. destruct H as [H|H]; [congruence|exact H].
    - intros O. destruct (i_idle _ I _ _ E O) as (_ & _ & H). repeat split; try reflexivity. exact H.
    - intros _. split; [congruence|discriminate]. }
  assert (D : exists x', x' = set_tasks r x /\ (forall y k', y = run_chan c x' -> k' = k_with_events es (k_notify k) k ->
    (forall j, x_chans y j = if Nat.eqb j c then Some (k_with_scan (wanted x true (k_links k)) (wanted x false (k_links k)) (took e k')) else x_chans x j) /\
  (forall i, x_links y i = option_map (retyped e k' i) (x_links x i)) /\
  x_nc y = x_nc x /\ x_keys y = x_keys x /\ x_tasks y = r ++ [TRun c] /\ x_out y = x_out x ++ OEvent c e :: processing x (k_links k) /\
  x_recs y = x_recs x /\ x_running y = x_running x)).
  { exists (set_tasks r x). split; [reflexivity|]. intros y k' -> ->.
    (* the invariants which run_chan_event uses do not speak of tasks: take a state with the task back *)
    pose (x2 := set_tasks (TRun c :: r) x). assert (X : x2 = x) by (unfold x2; destruct x; cbn in *; rewrite T; reflexivity).
    assert (NE : k_links k <> []) by (rewrite KL; discriminate).
    pose proof (run_chan_event c x k e es I E NE EV) as H. cbv zeta in H.
    assert (F : forall ts, run_chan c (set_tasks ts x) = set_tasks (ts ++ [TRun c]) (run_chan c x)).
    { intros ts. unfold run_chan. cbn [set_tasks x_chans]. rewrite E. unfold alive. rewrite KL. cbn [is_nil negb]. rewrite EV.
      assert (TK : take c e (k_with_events es (k_notify k) k) (emit [OEvent c e] (set_tasks ts x)) = set_tasks ts (take c e (k_with_events es (k_notify k) k) (emit [OEvent c e] x))).
      { unfold take. destruct e; [destruct (k_conn _)| |]; reflexivity. }
      rewrite TK. set (x1 := take c e _ (emit [OEvent c e] x)). destruct (take_eq c e (k_with_events es (k_notify k) k) (emit [OEvent c e] x)) as (T1 & _). fold x1 in T1.
      cbn [set_tasks x_chans]. rewrite (T1 c), Nat.eqb_refl. reflexivity. }
    destruct H as (A1 & A2 & A3 & A4 & A5 & A6 & A7 & A8). rewrite F. cbn [set_tasks x_chans x_links x_nc x_keys x_tasks x_out x_recs x_running].
    split; [exact A1|]. split; [exact A2|]. split; [exact A3|]. split; [exact A4|]. split; [reflexivity|]. split; [exact A6|]. split; [exact A7|exact A8]. }
  destruct D as (x' & -> & D). specialize (D _ _ eq_refl eq_refl). destruct D as (A1 & A2 & A3 & A4 & A5 & A6 & A7 & A8).
  set (k' := k_with_events es (k_notify k) k) in *. destruct (took_rest e k') as (R1 & R2 & R3 & R4 & R5 & R6 & R7 & R8).
  assert (TK : taken c (x_out (run_chan c (set_tasks r x))) = taken c (x_out x) ++ [e]).
  { rewrite A6, taken_app. cbn [taken]. destruct (Nat.eq_dec c c); [|contradiction]. rewrite processing_taken. reflexivity. }
  assert (NT : k_notify k = false) by (apply (i_note _ I _ _ E); [rewrite KL; discriminate|rewrite EV; discriminate]).
  apply (inv_chan _ _ _ _ (k_with_scan (wanted x true (k_links k)) (wanted x false (k_links k)) (took e k')) (retyped e k') I E A2).
  - intros i l. apply retyped_conf.
  - intros i l H1 H2. unfold retyped. destruct (existsb (Nat.eqb i) (k_links k')) eqn:X; [|reflexivity]. apply existsb_in in X. destruct (i_back _ I _ _ _ E X) as (m & M1 & M2). congruence.
  - exact A1.
  - exact A3.
  - exact A4.
  - cbn [k_with_scan k_links]. rewrite R5. reflexivity.
  - cbn [k_with_scan k_key]. rewrite R1. reflexivity.
  - intros d N H. rewrite A5. apply in_app_iff. left. rewrite T in H. destruct H as [H|H]; [congruence|exact H].
  - intros d N. rewrite A6, taken_app. cbn [taken]. destruct (Nat.eq_dec c d); [congruence|]. rewrite processing_taken, app_nil_r. reflexivity.
  - intros _. split; reflexivity.
  - cbn [k_with_scan k_open]. rewrite R2. change (k_open k') with (k_open k). intros O. destruct (i_idle _ I _ _ E O) as (H & _). rewrite EV in H. discriminate H.
  - intros _. cbn [k_with_scan k_events k_notify]. rewrite R4. split; [intros _; exact NT|]. intros _. rewrite A5. apply in_app_iff. right. left. reflexivity.
  - cbn [k_with_scan k_conn k_roots]. apply (took_see e k' _ (taken c (x_out x))); [|rewrite TK; reflexivity]. exact (i_see _ I _ _ E).
  - cbn [k_with_scan k_conn]. intros i l H1 H2 H3.
    assert (X : existsb (Nat.eqb i) (k_links k') = true). { apply existsb_in. destruct (i_att _ I _ _ _ H1 H2) as (kk & K1 & K2). rewrite E in K1. injection K1 as <-. exact K2. }
    unfold retyped. rewrite X. rewrite (type_change_roots _ (took e k') _) by reflexivity. destruct e as [u|s ns|].
    + destruct (k_conn k') eqn:KC.
      * pose proof (i_see _ I _ _ E) as S. change (k_conn k) with (k_conn k') in S. rewrite KC in S. destruct S as (r0 & v & w & Q & _).
        rewrite (type_change_merge k (took (MUpdate u) k') r0 v u l Q); [exact (i_fields _ I _ _ _ _ H1 H2 E KC)|].
        unfold took. rewrite KC. cbn [k_with_root k_roots]. change (k_roots k') with (k_roots k). rewrite Q, rev_app_distr. cbn. rewrite rev_involutive. reflexivity.
      * apply type_change_twice.
    + discriminate H3.
    + change (k_conn k = true) in H3. rewrite (type_change_roots (took MError k') k) by reflexivity. exact (i_fields _ I _ _ _ _ H1 H2 E H3).
Qed.
