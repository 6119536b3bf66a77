(** Invariant of the threads of PVA links, and how they get on. *)
From Coq Require Import List Bool Arith Lia.
From Verif Require Import LinkLockModel.
Import ListNotations.

Definition owns (a : thread) (c : nat) : Prop := exists j, a = Hold c j \/ a = Waits c j \/ a = Leave c j.
Record inv (s : st) : Prop := {
  v_thread : forall c t, lock s c = Thread t <-> owns (th s t) c;
  v_worker : forall c, lock s c = Worker <-> exists d, wk s = WHold c d;
  v_jobs : forall t, In t (jobs s) <-> exists c j, th s t = Waits c j;
  v_once : NoDup (jobs s) }.
Lemma upd_eq {A} (f : nat -> A) i a : upd f i a i = a.
Proof. unfold upd. rewrite Nat.eqb_refl. reflexivity. Qed.
Lemma upd_ne {A} (f : nat -> A) i j a : j <> i -> upd f i a j = f j.
Proof. unfold upd. intros N. destruct (Nat.eqb_spec j i); [contradiction|reflexivity]. Qed.
Lemma inv_start : inv start.
Proof.
  constructor; cbn.
  - intros c t. split; [discriminate|intros (j & [H|[H|H]]); discriminate].
  - intros c. split; [discriminate|intros (d & H); discriminate].
  - intros t. split; [contradiction|intros (c & j & H); discriminate].
  - constructor.
Qed.
Ltac ow := unfold owns in *; repeat match goal with H : exists _, _ |- _ => destruct H | H : _ \/ _ |- _ => destruct H end.
(** one thread changes, from one way to have no lock to another *)
Lemma owns_upd s t a : (forall c, owns (th s t) c <-> owns a c) -> forall c u, owns (upd (th s) t a u) c <-> owns (th s u) c.
Proof. intros H c u. destruct (Nat.eq_dec u t) as [-> |N]; [rewrite upd_eq; symmetry; apply H|rewrite upd_ne by exact N; tauto]. Qed.
Lemma waits_upd s t a : (forall c j, th s t <> Waits c j) -> (forall c j, a <> Waits c j) -> forall u, (exists c j, upd (th s) t a u = Waits c j) <-> exists c j, th s u = Waits c j.
Proof.
  intros A B u. destruct (Nat.eq_dec u t) as [-> |N]; [rewrite upd_eq|rewrite upd_ne by exact N; tauto].
  split; intros (c & j & H); [exact (match B c j H with end)|exact (match A c j H with end)].
Qed.
Lemma not_owns c : ~ owns Idle c.
Proof. intros (j & [H|[H|H]]); discriminate. Qed.
Lemma want_owns c d j : ~ owns (Want d j) c.
Proof. intros (k & [H|[H|H]]); discriminate. Qed.
Lemma hold_owns a c d j : a = Hold c j \/ a = Waits c j \/ a = Leave c j -> (owns a d <-> c = d).
Proof. intros H. split; [|intros <-; exists j; exact H]. intros (k & [K|[K|K]]); rewrite K in H; destruct H as [H|[H|H]]; congruence. Qed.
Lemma inv_step s e : inv s -> inv (step s e).
Proof.
  intros IV. pose proof (v_thread _ IV) as VT. pose proof (v_worker _ IV) as VW. pose proof (v_jobs _ IV) as VJ. pose proof (v_once _ IV) as VO. destruct e as [t c j|t|t|t|c d| |b|]; cbn [step].
  - destruct (th s t) eqn:T; try exact IV. constructor; cbn [lock op jobs wk th set_th].
    + intros e u. rewrite VT. symmetry. apply owns_upd. intros f. rewrite T. pose proof (not_owns f). pose proof (want_owns f c j). tauto.
    + exact VW.
    + intros u. rewrite VJ. symmetry. apply waits_upd; [rewrite T; discriminate|discriminate].
    + exact VO.
  - destruct (th s t) as [|c j| | |] eqn:T; try exact IV. destruct (lock s c) eqn:LC; try exact IV. constructor; cbn [lock op jobs wk th set_th set_lock].
    + intros e u. destruct (Nat.eq_dec e c) as [-> |N].
      * rewrite upd_eq. destruct (Nat.eq_dec u t) as [-> |NU]; [rewrite upd_eq, (hold_owns (Hold c j) c c j) by tauto; tauto|]. rewrite (upd_ne _ t u) by exact NU. rewrite <- VT, LC. split; [congruence|discriminate].
      * rewrite upd_ne by exact N. destruct (Nat.eq_dec u t) as [-> |NU]; [rewrite upd_eq, (hold_owns (Hold c j) c e j) by tauto|rewrite upd_ne by exact NU; apply VT]. rewrite VT, T. pose proof (want_owns e c j). split; [tauto|congruence].
    + intros e. destruct (Nat.eq_dec e c) as [-> |N]; [rewrite upd_eq|rewrite upd_ne by exact N; apply VW]. rewrite <- VW, LC. split; discriminate.
    + intros u. rewrite VJ. symmetry. apply waits_upd; [rewrite T; discriminate|discriminate].
    + exact VO.
  - destruct (th s t) as [| |c j| |] eqn:T; try exact IV. cbv zeta. destruct (waits j (op s c)); constructor; cbn [lock op jobs wk th set_th set_jobs set_op].
    + intros e u. rewrite VT. symmetry. apply owns_upd. intros f. rewrite T, (hold_owns (Hold c j) c f j), (hold_owns (Waits c j) c f j) by tauto. tauto.
    + exact VW.
    + intros u. rewrite in_app_iff, VJ. cbn [In]. destruct (Nat.eq_dec u t) as [-> |N].
      * rewrite upd_eq. split; [intros _; exists c, j; reflexivity|tauto].
      * rewrite upd_ne by exact N. split; [intros [H|[H|[]]]; [exact H|congruence]|tauto].
    + apply NoDup_rev in VO. rewrite <- (rev_involutive (jobs s ++ [t])). apply NoDup_rev. rewrite rev_app_distr. cbn. constructor; [|exact VO]. rewrite <- in_rev, VJ, T. intros (? & ? & ?). discriminate.
    + intros e u. rewrite VT. symmetry. apply owns_upd. intros f. rewrite T, (hold_owns (Hold c j) c f j), (hold_owns (Leave c j) c f j) by tauto. tauto.
    + exact VW.
    + intros u. rewrite VJ. symmetry. apply waits_upd; [rewrite T; discriminate|discriminate].
    + exact VO.
  - destruct (th s t) as [| | | |c j] eqn:T; try exact IV. assert (LC : lock s c = Thread t) by (apply VT; rewrite T; exists j; tauto). constructor; cbn [lock op jobs wk th set_th set_lock].
    + intros e u. destruct (Nat.eq_dec u t) as [-> |NU].
      * rewrite upd_eq. split; [|intros H; destruct (not_owns _ H)]. destruct (Nat.eq_dec e c) as [-> |N]; [rewrite upd_eq; discriminate|rewrite upd_ne by exact N]. rewrite VT, T, (hold_owns (Leave c j) c e j) by tauto. congruence.
      * rewrite (upd_ne _ t u) by exact NU. rewrite <- VT. destruct (Nat.eq_dec e c) as [-> |N]; [rewrite upd_eq, LC; split; [discriminate|congruence]|rewrite upd_ne by exact N; tauto].
    + intros e. destruct (Nat.eq_dec e c) as [-> |N]; [rewrite upd_eq|rewrite upd_ne by exact N; apply VW]. rewrite <- VW, LC. split; discriminate.
    + intros u. rewrite VJ. symmetry. apply waits_upd; [rewrite T; discriminate|discriminate].
    + exact VO.
  - destruct (wk s) eqn:W; try exact IV. destruct (op s c); [|exact IV]. constructor; cbn [lock op jobs wk th set_wk]; try assumption. intros e. rewrite VW. split; intros (f & H); discriminate.
  - destruct (wk s) as [|c d|] eqn:W; try exact IV. destruct (lock s c) eqn:LC; try exact IV. constructor; cbn [lock op jobs wk th set_wk set_lock]; try assumption.
    + intros e u. destruct (Nat.eq_dec e c) as [-> |N]; [rewrite upd_eq|rewrite upd_ne by exact N; apply VT]. rewrite <- VT, LC. split; discriminate.
    + intros e. destruct (Nat.eq_dec e c) as [-> |N]; [rewrite upd_eq; split; [intros _; exists d; reflexivity|reflexivity]|rewrite upd_ne by exact N]. rewrite VW. split; intros (f & H); [discriminate|congruence].
  - destruct (wk s) as [| |c d] eqn:W; try exact IV. assert (LC : lock s c = Worker) by (apply VW; exists d; reflexivity).
    assert (E : forall x, x = set_lock c Nobody (set_wk WFree (if d then set_op c b s else s)) -> lock x = upd (lock s) c Nobody /\ wk x = WFree /\ jobs x = jobs s /\ th x = th s) by (intros x ->; destruct d; repeat split; reflexivity).
    destruct (E _ eq_refl) as (E1 & E2 & E3 & E4). constructor; rewrite ?E1, ?E2, ?E3, ?E4; try assumption.
    + intros e u. destruct (Nat.eq_dec e c) as [-> |N]; [rewrite upd_eq|rewrite upd_ne by exact N; apply VT]. rewrite <- VT, LC. split; discriminate.
    + intros e. destruct (Nat.eq_dec e c) as [-> |N]; [rewrite upd_eq; split; [discriminate|intros (f & H); discriminate]|rewrite upd_ne by exact N]. rewrite VW. split; intros (f & H); [injection H as -> ->; contradiction|discriminate].
  - destruct (wk s) eqn:W; try exact IV. destruct (jobs s) as [|t r] eqn:J; [exact IV|]. destruct (proj1 (VJ t) (or_introl eq_refl)) as (c & j & T). rewrite T. inversion VO as [|? ? NI ND]; subst. constructor; cbn [lock op jobs wk th set_th set_jobs].
    + intros e u. rewrite VT. symmetry. apply owns_upd. intros f. rewrite T, (hold_owns (Waits c j) c f j), (hold_owns (Leave c j) c f j) by tauto. tauto.
    + intros e. rewrite VW. rewrite W. tauto.
    + intros u. destruct (Nat.eq_dec u t) as [-> |N]; [rewrite upd_eq; split; [contradiction|intros (? & ? & ?); discriminate]|]. rewrite upd_ne by exact N. rewrite <- VJ. cbn. split; [tauto|intros [H|H]; [congruence|exact H]].
    + exact ND.
Qed.
Lemma run_app s a b : run s (a ++ b) = run (run s a) b.
Proof. apply fold_left_app. Qed.
Lemma inv_run h : forall s, inv s -> inv (run s h).
Proof. induction h as [|e h IH]; intros s IV; [exact IV|]. apply IH. apply inv_step. exact IV. Qed.

(** ** A deadlock stays *)
Lemma stuck_run h t c j d : forall s, inv s -> th s t = Waits c j -> wk s = WWant c d -> th (run s h) t = Waits c j /\ wk (run s h) = WWant c d.
Proof.
  induction h as [|e h IH]; intros s IV T W; [tauto|]. apply (IH (step s e)); [apply inv_step; exact IV| |].
  - destruct e as [u f k|u|u|u|f g| |b|]; cbn [step]; rewrite ?W; try exact T.
    + destruct (th s u) eqn:U; try exact T. cbn. rewrite upd_ne by congruence. exact T.
    + destruct (th s u) eqn:U; try exact T. destruct (lock s _); try exact T. cbn. rewrite upd_ne by congruence. exact T.
    + destruct (th s u) eqn:U; try exact T. cbv zeta. destruct (waits _ _); cbn; rewrite upd_ne by congruence; exact T.
    + destruct (th s u) eqn:U; try exact T. cbn. rewrite upd_ne by congruence. exact T.
    + destruct (lock s c); exact T.
  - assert (L : lock s c = Thread t) by (apply (v_thread _ IV); rewrite T; exists j; tauto).
    destruct e as [u f k|u|u|u|f g| |b|]; cbn [step]; try exact W; try (rewrite ?W, ?L, ?W; reflexivity).
    + destruct (th s u); exact W.
    + destruct (th s u) as [|f k| | |]; try exact W. destruct (lock s f); exact W.
    + destruct (th s u); try exact W. cbv zeta. destruct (waits _ _); exact W.
    + destruct (th s u); exact W.
Qed.

(** ** Else every thread can get on *)
Definition free_for (s : st) : Prop := forall c d, wk s = WWant c d -> forall t j, th s t <> Waits c j /\ (th s t = Hold c j -> waits j (op s c) = false).
Lemma th_unlock s t c j : th s t = Leave c j -> lock (step s (Unlock t)) c = Nobody /\ th (step s (Unlock t)) t = Idle /\ wk (step s (Unlock t)) = wk s /\ forall u, u <> t -> th (step s (Unlock t)) u = th s u.
Proof. intros T. cbn [step]. rewrite T. cbn. rewrite !upd_eq. split; [reflexivity|]. split; [reflexivity|]. split; [reflexivity|]. intros u N. apply upd_ne. exact N. Qed.
(** the worker gets free *)
Lemma get_free s : inv s -> free_for s -> exists h, wk (run s h) = WFree /\ forall t, th (run s h) t = th s t \/ th (run s h) t = Idle.
Proof.
  intros IV F. destruct (wk s) as [|c d|c d] eqn:W.
  - exists []. split; [exact W|tauto].
  - assert (A : forall s, wk s = WWant c d -> lock s c = Nobody -> wk (run s [WLock; WUnlock false]) = WFree /\ forall t, th (run s [WLock; WUnlock false]) t = th s t).
    { clear. intros s W L. unfold run. cbn [fold_left step]. rewrite W, L. cbn. destruct d; cbn; split; reflexivity. }
    destruct (lock s c) as [| |t] eqn:L.
    + exists [WLock; WUnlock false]. destruct (A s W L) as [A1 A2]. split; [exact A1|]. intros t. left. apply A2.
    + exfalso. apply (v_worker _ IV) in L. destruct L as (d' & L). congruence.
    + pose proof (proj1 (v_thread _ IV c t) L) as (j & O). destruct (F c d W t j) as [N1 N2].
      assert (B : exists h, wk (run s h) = WWant c d /\ lock (run s h) c = Nobody /\ forall u, th (run s h) u = th s u \/ th (run s h) u = Idle).
      { destruct O as [O|[O|O]]; [|contradiction|].
        - exists [Go t; Unlock t]. unfold run. cbn [fold_left]. set (s1 := step s (Go t)). assert (T1 : th s1 t = Leave c j /\ wk s1 = WWant c d /\ forall u, u <> t -> th s1 u = th s u).
          { unfold s1. cbn [step]. rewrite O. cbv zeta. rewrite (N2 O). cbn. rewrite upd_eq. split; [reflexivity|]. split; [exact W|]. intros u N. apply upd_ne. exact N. }
          destruct T1 as (T1 & W1 & U1). destruct (th_unlock s1 t c j T1) as (L2 & T2 & W2 & U2). split; [congruence|]. split; [exact L2|]. intros u. destruct (Nat.eq_dec u t) as [-> |N]; [right; exact T2|left; rewrite U2, U1 by exact N; reflexivity].
        - exists [Unlock t]. unfold run. cbn [fold_left]. destruct (th_unlock s t c j O) as (L2 & T2 & W2 & U2). split; [congruence|]. split; [exact L2|]. intros u. destruct (Nat.eq_dec u t) as [-> |N]; [right; exact T2|left; apply U2; exact N]. }
      destruct B as (h & W1 & L1 & U1). exists (h ++ [WLock; WUnlock false]). rewrite run_app. destruct (A _ W1 L1) as [A1 A2]. split; [exact A1|]. intros u. rewrite A2. apply U1.
  - exists [WUnlock false]. unfold run. cbn [fold_left step]. rewrite W. cbn. destruct d; cbn; split; try reflexivity; tauto.
Qed.
(** a thread which has a lock gets on *)
Lemma cancel_all t c j l : forall s, inv s -> wk s = WFree -> jobs s = l -> th s t = Waits c j ->
  exists n, let s' := run s (repeat Cancel n) in wk s' = WFree /\ th s' t = Leave c j /\ (forall u d k, th s u = Want d k -> th s' u = Want d k).
Proof.
  induction l as [|u r IH]; intros s IV W J T.
  - exfalso. assert (I0 : In t (jobs s)) by (apply (v_jobs _ IV); exists c, j; exact T). rewrite J in I0. contradiction.
  - destruct (proj1 (v_jobs _ IV u)) as (f & k & U); [rewrite J; left; reflexivity|].
    assert (E : step s Cancel = set_jobs r (set_th u (Leave f k) s)) by (cbn [step]; rewrite W, J, U; reflexivity).
    assert (K : forall v d k0, th s v = Want d k0 -> th (step s Cancel) v = Want d k0). { intros v d k0 V. rewrite E. cbn. rewrite upd_ne by congruence. exact V. }
    destruct (Nat.eq_dec t u) as [-> |N].
    + exists 1. cbn [repeat]. change (run s [Cancel]) with (step s Cancel). cbv zeta. split; [rewrite E; exact W|]. split; [rewrite E; cbn; rewrite upd_eq; congruence|exact K].
    + assert (TS : th (step s Cancel) t = Waits c j) by (rewrite E; cbn; rewrite upd_ne by exact N; exact T).
      destruct (IH (step s Cancel) (inv_step s Cancel IV) ltac:(rewrite E; exact W) ltac:(rewrite E; reflexivity) TS) as (n & A). exists (S n). cbn [repeat]. change (run s (Cancel :: repeat Cancel n)) with (run (step s Cancel) (repeat Cancel n)).
      cbv zeta in *. destruct A as (A1 & A2 & A3). split; [exact A1|]. split; [exact A2|]. intros v d k0 V. apply A3. apply K. exact V.
Qed.
Lemma get_on s t c : inv s -> wk s = WFree -> owns (th s t) c -> exists h, let s' := run s h in wk s' = WFree /\ th s' t = Idle /\ lock s' c = Nobody /\ (forall u d k, th s u = Want d k -> th s' u = Want d k).
Proof.
  intros IV W (j & O).
  assert (A : forall s, wk s = WFree -> th s t = Leave c j -> let s' := run s [Unlock t] in wk s' = WFree /\ th s' t = Idle /\ lock s' c = Nobody /\ (forall u d k, th s u = Want d k -> th s' u = Want d k)).
  { clear. intros s W T. change (run s [Unlock t]) with (step s (Unlock t)). cbv zeta. destruct (th_unlock s t c j T) as (L2 & T2 & W2 & U2). split; [congruence|]. split; [exact T2|]. split; [exact L2|]. intros u d k U. rewrite U2 by congruence. exact U. }
  assert (B : forall s, inv s -> wk s = WFree -> th s t = Waits c j -> exists h, let s' := run s h in wk s' = WFree /\ th s' t = Idle /\ lock s' c = Nobody /\ (forall u d k, th s u = Want d k -> th s' u = Want d k)).
  { clear s IV W O. intros s IV W T. destruct (cancel_all t c j (jobs s) s IV W eq_refl T) as (n & C). cbv zeta in C. destruct C as (C1 & C2 & C3). exists (repeat Cancel n ++ [Unlock t]). rewrite run_app. cbv zeta.
    pose proof (A _ C1 C2) as A1. cbv zeta in A1. destruct A1 as (A1 & A2 & A3 & A4). split; [exact A1|]. split; [exact A2|]. split; [exact A3|]. intros u d k U. apply A4. apply C3. exact U. }
  destruct O as [O|[O|O]].
  - assert (K : forall u d k, th s u = Want d k -> th (step s (Go t)) u = Want d k). { intros u d k U. cbn [step]. rewrite O. cbv zeta. destruct (waits _ _); cbn; rewrite upd_ne by congruence; exact U. }
    assert (W1 : wk (step s (Go t)) = WFree) by (cbn [step]; rewrite O; cbv zeta; destruct (waits _ _); exact W).
    destruct (waits j (op s c)) eqn:P.
    + destruct (B (step s (Go t)) (inv_step s (Go t) IV) W1) as (h & H); [cbn [step]; rewrite O; cbv zeta; rewrite P; cbn; apply upd_eq|]. exists (Go t :: h). change (run s (Go t :: h)) with (run (step s (Go t)) h). cbv zeta in *. destruct H as (H1 & H2 & H3 & H4). split; [exact H1|]. split; [exact H2|]. split; [exact H3|]. intros u d k U. apply H4. apply K. exact U.
    + assert (H : th (step s (Go t)) t = Leave c j) by (cbn [step]; rewrite O; cbv zeta; rewrite P; cbn; apply upd_eq). pose proof (A _ W1 H) as A1. exists [Go t; Unlock t]. change (run s [Go t; Unlock t]) with (run (step s (Go t)) [Unlock t]). cbv zeta in *. destruct A1 as (H1 & H2 & H3 & H4). split; [exact H1|]. split; [exact H2|]. split; [exact H3|]. intros u d k U. apply H4. apply K. exact U.
  - exact (B s IV W O).
  - exists [Unlock t]. exact (A s W O).
Qed.
Lemma returns s t : inv s -> free_for s -> exists h, th (run s h) t = Idle.
Proof.
  intros IV F. destruct (get_free s IV F) as (h1 & W1 & T1). set (s1 := run s h1) in *. assert (I1 : inv s1) by (apply inv_run; exact IV).
  assert (A : forall s c, inv s -> wk s = WFree -> owns (th s t) c -> exists h, th (run s h) t = Idle). { intros x c IX WX O. destruct (get_on x t c IX WX O) as (h & H). cbv zeta in H. exists h. tauto. }
  assert (B : exists h, th (run s1 h) t = Idle).
  { destruct (th s1 t) as [|c j|c j|c j|c j] eqn:T; [exists []; exact T| |apply (A s1 c I1 W1); rewrite T; exists j; tauto..].
    assert (C : forall x, inv x -> wk x = WFree -> th x t = Want c j -> lock x c = Nobody -> exists h, th (run x h) t = Idle).
    { intros x IX WX TX LX. assert (E : step x (Lock t) = set_lock c (Thread t) (set_th t (Hold c j) x)) by (cbn [step]; rewrite TX, LX; reflexivity).
      destruct (A (step x (Lock t)) c (inv_step _ _ IX)) as (h & H); [rewrite E; exact WX|rewrite E; cbn; rewrite upd_eq; exists j; tauto|]. exists (Lock t :: h). exact H. }
    destruct (lock s1 c) as [| |u] eqn:L.
    - exact (C s1 I1 W1 T L).
    - exfalso. apply (v_worker _ I1) in L. destruct L as (d & L). congruence.
    - destruct (get_on s1 u c I1 W1 (proj1 (v_thread _ I1 c u) L)) as (h & H). cbv zeta in H. destruct H as (H1 & _ & H3 & H4).
      destruct (C (run s1 h) (inv_run h s1 I1) H1 (H4 t c j T) H3) as (h' & H'). exists (h ++ h'). rewrite run_app. exact H'. }
  destruct B as (h2 & H2). exists (h1 ++ h2). rewrite run_app. exact H2.
Qed.

(** ** Others wait too *)
Lemma waiter_run h u e k c d : forall s, inv s -> th s u = Waits e k -> wk s = WWant c d -> forall t j, th s t = Waits c j -> th (run s h) u = Waits e k.
Proof.
  induction h as [|v h IH]; intros s IV U W t j T; [exact U|]. pose proof (stuck_run [v] t c j d s IV T W) as [T' W']. refine (IH (step s v) (inv_step _ _ IV) _ W' t j T').
  destruct v as [w f i|w|w|w|f g| |b|]; cbn [step]; rewrite ?W; try exact U.
  - destruct (th s w) eqn:E; try exact U. cbn. rewrite upd_ne by congruence. exact U.
  - destruct (th s w) as [|f i| | |] eqn:E; try exact U. destruct (lock s f); try exact U. cbn. rewrite upd_ne by congruence. exact U.
  - destruct (th s w) eqn:E; try exact U. cbv zeta. destruct (waits _ _); cbn; rewrite upd_ne by congruence; exact U.
  - destruct (th s w) eqn:E; try exact U. cbn. rewrite upd_ne by congruence. exact U.
  - destruct (lock s c); exact U.
Qed.
Lemma wanter_run h u k c d : forall s, inv s -> th s u = Want c k -> wk s = WWant c d -> forall t j, th s t = Waits c j -> th (run s h) u = Want c k.
Proof.
  induction h as [|v h IH]; intros s IV U W t j T; [exact U|]. pose proof (stuck_run [v] t c j d s IV T W) as [T' W']. refine (IH (step s v) (inv_step _ _ IV) _ W' t j T').
  assert (L : lock s c = Thread t) by (apply (v_thread _ IV); rewrite T; exists j; tauto).
  destruct v as [w f i|w|w|w|f g| |b|]; cbn [step]; rewrite ?W; try exact U.
  - destruct (th s w) eqn:E; try exact U. cbn. rewrite upd_ne by congruence. exact U.
  - destruct (th s w) as [|f i| | |] eqn:E; try exact U. destruct (Nat.eq_dec u w) as [<- |N]; [rewrite U in E; injection E as <- <-; rewrite L; exact U|]. destruct (lock s f); try exact U. cbn. rewrite upd_ne by exact N. exact U.
  - destruct (th s w) eqn:E; try exact U. cbv zeta. destruct (waits _ _); cbn; rewrite upd_ne by congruence; exact U.
  - destruct (th s w) eqn:E; try exact U. cbn. rewrite upd_ne by congruence. exact U.
  - destruct (lock s c); exact U.
Qed.
