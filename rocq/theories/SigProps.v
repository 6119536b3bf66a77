(** C117: SigInt. *)
From Coq Require Import List Bool Arith Lia.
From Verif Require Import SigModel SigSpec.
Import ListNotations.

Lemma nth_upd {A} : forall (l : list A) t y u, nth_error (upd l t y) u = if (u =? t) && (t <? length l) then Some y else nth_error l u.
Proof. induction l as [|z l IH]; intros [|t] y [|u]; cbn; auto; [now rewrite andb_false_r|]. rewrite IH. reflexivity. Qed.

(** ** Any schedule *)
Definition base (s : st) : Prop :=
  calls s = (if fin s then 1 else 0) /\ (isopen s = false -> next s = 0 \/ fin s = true) /\
  (ph s = Idle <-> isopen s = false) /\ (ph s = Asked -> fin s = true \/ 0 < q s) /\ (ph s = Joined \/ ph s = Cleared -> fin s = true) /\ (0 < told s -> fin s = true \/ 0 < q s) /\
  (next s = 0 -> isopen s = false /\ told s = 0).
Ltac inv1 H := repeat match type of H with context[match ?x with _ => _ end] => let E := fresh "E" in destruct x eqn:E; try discriminate H end; injection H as <-.
Lemma base_step s e s' : base s -> step s e = Some s' -> base s'.
Proof.
  intros (A & B & C & D & E0 & F & G) S. destruct e as [| |i|]; cbn [step] in S.
  - unfold user in S. destruct (ph s) eqn:P.
    + destruct (prog s) as [|[|] r]; [discriminate| |]; [destruct (onsig s)|]; injection S as <-; unfold base; cbn; rewrite ?P.
      * repeat split; try discriminate; try lia. intros [Z|Z]; discriminate.
      * auto 8.
      * auto 8.
      * auto 8.
    + injection S as <-. unfold base. cbn. repeat split; auto; try discriminate; try (intros [Z|Z]; discriminate); try apply G; auto. intro Z. apply C in Z. discriminate.
    + destruct (prog s) as [|[|] r]; [discriminate| |]; injection S as <-; unfold base; cbn; rewrite ?P; [auto 8|]. repeat split; auto; try discriminate; try (intros [Z|Z]; discriminate); try apply G; auto. intro Z. apply C in Z. discriminate.
    + injection S as <-. unfold base. cbn. repeat split; auto; try discriminate; try (intros [Z|Z]; discriminate); try apply G; auto; try (intro; right; lia). intro Z. apply C in Z. discriminate.
    + destruct (fin s) eqn:FN; [|discriminate]. injection S as <-. unfold base. cbn. rewrite FN. repeat split; auto; try discriminate; try apply G; auto. intro Z. apply C in Z. discriminate.
    + injection S as <-. unfold base. cbn. repeat split; auto; try discriminate; try apply G; auto. intro Z. apply C in Z. discriminate.
    + injection S as <-. unfold base. cbn. repeat split; auto; try discriminate; try apply G; auto; try (intros [Z|Z]; discriminate).
  - unfold worker in S. destruct (isopen s && negb (fin s) && (0 <? q s)) eqn:E; [|discriminate]. apply andb_prop in E as (E & E2). apply andb_prop in E as (E & E1). apply negb_true_iff in E1. injection S as <-. unfold base. cbn. rewrite A, E1. split; [lia|]. split; [auto|]. split; [exact C|]. split; [auto|]. split; [auto|]. split; [auto|exact G].
  - unfold handler, send in S. inv1 S; unfold base; cbn [handle calls fin isopen next ph q told]; (split; [exact A|]); (split; [exact B|]); (split; [exact C|]); (split; [intro Z; destruct (D Z); [now left|right; lia]|]); (split; [exact E0|]);
      (split; [solve [exact F|intro; right; lia]|]); try exact G. intro Z. destruct (G Z) as (Z1 & _). match goal with H : _ && _ = true |- _ => apply andb_prop in H as (H & _); congruence end.
  - destruct (installed s); injection S as <-; unfold base; cbn; auto 10.
Qed.
Lemma base_run es : forall s s', base s -> run s es = Some s' -> base s'.
Proof. induction es as [|e es IH]; intros s s' I R; cbn [run] in R; [now injection R as <-|]. destruct (step s e) as [s1|] eqn:E; [|discriminate]. eapply IH; [|exact R]. eapply base_step; eauto. Qed.
Lemma base_init p : base (init p).
Proof. unfold base. cbn. repeat split; auto; try discriminate; try lia. intros [Z|Z]; discriminate. Qed.
(** The function given to a SigInt is called at most once; when the destructor has returned it was called, and will not be called again. *)
Theorem C117_once : forall p es s, run (init p) es = Some s -> calls s <= 1 /\ (ph s = Idle -> step s Worker = None /\ (next s = 0 \/ calls s = 1)).
Proof.
  intros p es s R. destruct (base_run es _ _ (base_init p) R) as (A & B & C & _). split; [rewrite A; destruct (fin s); lia|]. intro P. apply C in P. split.
  - cbn. unfold worker. now rewrite P.
  - destruct (B P) as [Q|Q]; [now left|right]. now rewrite A, Q.
Qed.
(** Once a signal handler has sent its byte, the function was called or can be. *)
Theorem C117_called : forall p es s, run (init p) es = Some s -> 0 < told s -> calls s = 1 \/ exists s', step s Worker = Some s' /\ calls s' = 1.
Proof.
  intros p es s R T. destruct (base_run es _ _ (base_init p) R) as (A & B & C & D & E & F & G). destruct (fin s) eqn:FN; [now left|]. right. destruct (F T) as [Q|Q]; [discriminate|]. cbn. unfold worker. rewrite FN.
  destruct (isopen s) eqn:O; cbn [andb negb].
  - apply Nat.ltb_lt in Q. rewrite Q. eexists. split; [reflexivity|]. cbn. now rewrite A.
  - exfalso. destruct (B eq_refl) as [Z|Z]; [|discriminate].
    destruct (G Z). lia.
Qed.

(** ** When no signal handler is in progress while a SigInt is destroyed *)
Fixpoint cnt (f : hst -> nat) (l : list hst) : nat := match l with [] => 0 | x :: r => f x + cnt f r end.
Lemma cnt_upd f l : forall i x y, nth_error l i = Some x -> cnt f (upd l i y) + f x = cnt f l + f y.
Proof. induction l as [|z l IH]; intros [|i] x y H; try discriminate; cbn [upd cnt]; [injection H as ->; lia|]. cbn in H. specialize (IH _ _ y H). lia. Qed.
Lemma cnt_app f a b : cnt f (a ++ b) = cnt f a + cnt f b.
Proof. induction a as [|x a IH]; cbn; lia. Qed.
Lemma cnt_in f l : forall i x, nth_error l i = Some x -> f x <= cnt f l.
Proof. induction l as [|z l IH]; intros [|i] x H; try discriminate; cbn [cnt]; [injection H as ->; lia|]. specialize (IH _ _ H). lia. Qed.
Definition busy (h : hst) : nat := match h with Sending _ | Restoring _ => 1 | _ => 0 end.
Definition restoring (h : hst) : nat := match h with Restoring _ => 1 | _ => 0 end.
Definition live (h : hst) : nat := match h with Done => 0 | _ => 1 end.
Definition ours (n : nat) (h : hst) : Prop := match h with Called | Done => True | Loaded m | Sending m | Restoring m => m = n end.
Lemma quiet_cnt l : Forall (eq Done) l -> cnt live l = 0 /\ cnt busy l = 0 /\ cnt restoring l = 0 /\ forall n, Forall (ours n) l.
Proof. induction 1 as [|x l <- H (A & B & C & D)]; cbn; repeat split; auto; constructor; cbn; auto. Qed.
Lemma cnt_quiet l : cnt live l = 0 -> Forall (eq Done) l.
Proof. induction l as [|x l IH]; intro H; constructor; cbn in H; destruct x; cbn in H; try lia; auto; apply IH; lia. Qed.
Lemma busy_live l : cnt busy l <= cnt live l.
Proof. induction l as [|x l IH]; cbn; [lia|]. destruct x; cbn; lia. Qed.
Lemma restoring_busy l : cnt restoring l <= cnt busy l.
Proof. induction l as [|x l IH]; cbn; [lia|]. destruct x; cbn; lia. Qed.
Definition lively (s : st) : Prop :=
  isopen s = true /\ Forall (ours (fd s)) (hs s) /\ ((onsig s = Fd (fd s) /\ cnt busy (hs s) = 0) \/ (onsig s = InProg /\ cnt busy (hs s) = 1)) /\
  (0 < asked s -> 0 < told s \/ 0 < cnt live (hs s)) /\ (0 < cnt restoring (hs s) -> 0 < told s).
Definition orderly (s : st) : Prop := bad s = false /\
  match ph s with
  | Idle | Cleared => onsig s = Invalid /\ quiet s /\ installed s = false
  | Made => onsig s = Fd (fd s) /\ quiet s /\ installed s = false /\ isopen s = true /\ asked s = 0
  | Alive => lively s
  | _ => lively s /\ installed s = false
  end.
Lemma upd_forall (P : hst -> Prop) l : forall i y, Forall P l -> P y -> Forall P (upd l i y).
Proof. induction l as [|x l IH]; intros [|i] y H Y; cbn; auto; inversion H; subst; constructor; auto. Qed.
Lemma no_done l i h : Forall (eq Done) l -> nth_error l i = Some h -> h = Done.
Proof. intros H N. rewrite Forall_forall in H. symmetry. apply H. eapply nth_error_In; eauto. Qed.
Lemma lively_handler s i s' : lively s -> bad s = false -> handler s i = Some s' ->
  lively s' /\ bad s' = false /\ ph s' = ph s /\ installed s' = installed s.
Proof.
  intros (O & W & X & Y & Z) B H. unfold handler in H. destruct (nth_error (hs s) i) as [h|] eqn:N; [|discriminate].
  assert (CL := fun y => cnt_upd live _ _ _ y N). assert (CB := fun y => cnt_upd busy _ _ _ y N). assert (CR := fun y => cnt_upd restoring _ _ _ y N).
  assert (GL := cnt_in live _ _ _ N). assert (GR := cnt_in restoring _ _ _ N). assert (GB := cnt_in busy _ _ _ N).
  assert (OH : ours (fd s) h) by (rewrite Forall_forall in W; apply W; eapply nth_error_In; eauto). pose proof (busy_live (hs s)) as BL. pose proof (restoring_busy (hs s)) as RB.
  destruct h as [|n|n|n|]; cbn [ours] in OH; try subst n; [| | | |discriminate].
  - destruct X as [(Q & X)|(Q & X)]; rewrite Q in H; injection H as <-.
    + specialize (CL (Loaded (fd s))). specialize (CB (Loaded (fd s))). specialize (CR (Loaded (fd s))). cbn [live busy restoring] in *.
      split; [|auto]. unfold lively. cbn [handle isopen fd hs onsig asked told]. split; [exact O|]. split; [apply upd_forall; cbn; auto|]. split; [left; split; [reflexivity|lia]|]. split; [intros A; right; lia|intro A; apply Z; lia].
    + specialize (CL Done). specialize (CB Done). specialize (CR Done). cbn [live busy restoring] in *.
      split; [|auto]. unfold lively. cbn [handle isopen fd hs onsig asked told]. split; [exact O|]. split; [apply upd_forall; cbn; auto|]. split; [right; split; [reflexivity|lia]|].
      pose proof (busy_live (upd (hs s) i Done)). split; [intros A; right; lia|intro A; apply Z; lia].
  - destruct X as [(Q & X)|(Q & X)]; rewrite Q in H; cbn [same_fd] in H; [rewrite Nat.eqb_refl in H|]; injection H as <-.
    + specialize (CL (Sending (fd s))). specialize (CB (Sending (fd s))). specialize (CR (Sending (fd s))). cbn [live busy restoring] in *.
      split; [|auto]. unfold lively. cbn [handle isopen fd hs onsig asked told]. split; [exact O|]. split; [apply upd_forall; cbn; auto|]. split; [right; split; [reflexivity|lia]|]. split; [intros A; right; lia|intro A; apply Z; lia].
    + specialize (CL Done). specialize (CB Done). specialize (CR Done). cbn [live busy restoring] in *.
      split; [|auto]. unfold lively. cbn [handle isopen fd hs onsig asked told]. split; [exact O|]. split; [apply upd_forall; cbn; auto|]. split; [right; split; [reflexivity|lia]|].
      pose proof (busy_live (upd (hs s) i Done)). split; [intros A; right; lia|intro A; apply Z; lia].
  - injection H as <-. unfold send. rewrite O, Nat.eqb_refl. cbn [andb]. specialize (CB (Restoring (fd s))). cbn [live busy restoring] in *. split; [|auto]. unfold lively. cbn [handle isopen fd hs onsig asked told].
    split; [auto|]. split; [apply upd_forall; cbn; auto|]. split; [|split; intros; [left|]; lia]. destruct X as [(Q & X)|(Q & X)]; [left|right]; (split; [exact Q|lia]).
  - injection H as <-. specialize (CB Done). specialize (CR Done). cbn [live busy restoring] in *. assert (T : 0 < told s).
    { apply Z. destruct X as [(_ & X)|(_ & X)]; lia. }
    split; [|auto]. unfold lively. cbn [handle isopen fd hs onsig asked told]. split; [exact O|]. split; [apply upd_forall; cbn; auto|]. split; [left; split; [reflexivity|]|auto]. destruct X as [(_ & X)|(_ & X)]; lia.
Qed.
Lemma lively_eq s s' : isopen s' = isopen s -> fd s' = fd s -> hs s' = hs s -> onsig s' = onsig s -> asked s' = asked s -> told s' = told s -> lively s -> lively s'.
Proof. unfold lively. intros -> -> -> -> -> ->. auto. Qed.
Lemma orderly_step s e s' : orderly s -> (e = User -> ph s = Joined -> quiet s) -> step s e = Some s' -> orderly s'.
Proof.
  intros (B & I) C S. destruct e as [| |i|]; cbn [step] in S.
  - unfold user in S. destruct (ph s) eqn:P.
    + destruct I as (O & Q & IN). destruct (prog s) as [|[|] r]; [discriminate| |]; [rewrite O in S|]; injection S as <-; unfold orderly; cbn; rewrite ?P; auto 8.
    + destruct I as (O & Q & IN & OP & A). injection S as <-. unfold orderly. cbn. split; [exact B|]. destruct (quiet_cnt _ Q) as (Q1 & Q2 & Q3 & Q4). unfold lively. cbn. rewrite Q1, Q2, Q3, A. split; [exact OP|]. split; [apply Q4|]. split; [left; auto|]. split; lia.
    + destruct (prog s) as [|[|] r]; [discriminate| |]; injection S as <-; unfold orderly; cbn; rewrite ?P; (split; [exact B|]); [|split; [|reflexivity]]; (eapply lively_eq; [..|exact I]; reflexivity).
    + destruct I as (I & IN). injection S as <-. unfold orderly. cbn. split; [exact B|]. split; [|exact IN]. eapply lively_eq; [..|exact I]; reflexivity.
    + destruct (fin s); [|discriminate]. destruct I as (I & IN). injection S as <-. unfold orderly. cbn. split; [exact B|]. split; [|exact IN]. eapply lively_eq; [..|exact I]; reflexivity.
    + destruct I as ((O & W & X & _) & IN). specialize (C eq_refl eq_refl). injection S as <-. unfold orderly. cbn. split; [exact B|]. destruct (quiet_cnt _ C) as (_ & Q2 & _). destruct X as [(Q & X)|(Q & X)]; [|lia]. rewrite Q. cbn. rewrite Nat.eqb_refl. auto.
    + destruct I as (O & Q & IN). injection S as <-. unfold orderly. cbn. auto.
  - unfold worker in S. destruct (isopen s && negb (fin s) && (0 <? q s)); [|discriminate]. injection S as <-. unfold orderly. cbn. split; [exact B|]. destruct (ph s); auto.
  - assert (K : quiet s -> False).
    { intro Q. unfold handler in S. destruct (nth_error (hs s) i) as [h|] eqn:N; [|discriminate]. rewrite (no_done _ _ _ Q N) in S. discriminate. }
    unfold orderly. destruct (ph s) eqn:P; try (exfalso; apply K; tauto).
    + destruct (lively_handler _ _ _ I B S) as (L & B' & P' & _). rewrite P', P. auto.
    + destruct I as (I & IN). destruct (lively_handler _ _ _ I B S) as (L & B' & P' & IN'). rewrite P', P, IN'. auto.
    + destruct I as (I & IN). destruct (lively_handler _ _ _ I B S) as (L & B' & P' & IN'). rewrite P', P, IN'. auto.
    + destruct I as (I & IN). destruct (lively_handler _ _ _ I B S) as (L & B' & P' & IN'). rewrite P', P, IN'. auto.
  - destruct (installed s) eqn:IN; injection S as <-; [|split; [exact B|]; rewrite IN; exact I]. unfold orderly. cbn. split; [exact B|]. assert (AL : ph s = Alive) by (destruct (ph s); try reflexivity; exfalso; [destruct I as (_ & _ & ?)|destruct I as (_ & _ & ? & _)|destruct I as (_ & ?)|destruct I as (_ & ?)|destruct I as (_ & ?)|destruct I as (_ & _ & ?)]; congruence). rewrite AL in *.
    destruct I as (O & W & X & Y & Z). unfold lively. cbn. rewrite !cnt_app. cbn. split; [exact O|]. split; [apply Forall_app; split; [exact W|repeat constructor]|]. rewrite !Nat.add_0_r. split; [exact X|]. split; [intros; right; lia|exact Z].
Qed.
Lemma orderly_run es : forall s s', orderly s -> calm s es -> run s es = Some s' -> orderly s'.
Proof.
  induction es as [|e es IH]; intros s s' I C R; cbn [run calm] in *; [now injection R as <-|]. destruct C as (C & C'). destruct (step s e) as [s1|] eqn:E; [|discriminate]. eapply IH; [|exact C'|exact R]. eapply orderly_step; eauto.
Qed.
Lemma orderly_init p : orderly (init p).
Proof. unfold orderly. cbn. repeat split. constructor. Qed.
(** If no signal handler is in progress at the end of the wait of a destructor: no signal handler uses a closed socket, and a SigInt can be made whenever there is none. *)
Theorem C117_safe_partial : forall p es s, run (init p) es = Some s -> calm (init p) es -> bad s = false /\ (ph s = Idle -> onsig s = Invalid).
Proof. intros p es s R C. destruct (orderly_run es _ _ (orderly_init p) C R) as (B & I). split; [exact B|]. intro P. rewrite P in I. apply I. Qed.
(** While there is a SigInt, once its signal handlers have ended, a signal has led to a byte, and so (C117_called) to a call of the function. *)
Theorem C117_signal_partial : forall p es s, run (init p) es = Some s -> calm (init p) es -> ph s = Alive -> 0 < asked s -> quiet s -> 0 < told s.
Proof.
  intros p es s R C P A Q. destruct (orderly_run es _ _ (orderly_init p) C R) as (B & I). rewrite P in I. destruct I as (_ & _ & _ & Y & _). destruct (quiet_cnt _ Q) as (Q1 & _). destruct (Y A); [assumption|lia].
Qed.
(** Nothing waits for ever: where nothing but a signal is possible, the thread has made and destroyed all, and all signal handlers have ended. *)
Theorem C117_ends : forall p es s, run (init p) es = Some s -> stuck s -> prog s = [] /\ (ph s = Idle \/ ph s = Alive) /\ quiet s.
Proof.
  intros p es s R ST. destruct (base_run es _ _ (base_init p) R) as (A & B & C & D & E & F & G).
  assert (Q : quiet s).
  { unfold quiet. rewrite Forall_forall. intros h H. apply In_nth_error in H as (i & H). specialize (ST (Handler i) ltac:(discriminate)). cbn [step] in ST. unfold handler in ST. rewrite H in ST. destruct h; auto; exfalso; [destruct (onsig s)|destruct (same_fd (onsig s) n)| |]; discriminate. }
  assert (U := ST User ltac:(discriminate)). assert (W := ST Worker ltac:(discriminate)). cbn [step] in U, W. unfold user in U. unfold worker in W.
  destruct (ph s) eqn:P; try discriminate.
  - destruct (prog s) as [|[|] r]; auto; [destruct (onsig s)|]; discriminate.
  - destruct (prog s) as [|[|] r]; auto; discriminate.
  - exfalso. destruct (fin s) eqn:FN; [discriminate|]. destruct (D eq_refl) as [Z|Z]; [discriminate|]. apply Nat.ltb_lt in Z. rewrite Z in W. destruct (isopen s) eqn:O; [discriminate|]. destruct C as (_ & C). discriminate (C eq_refl).
Qed.

(** The function is called although there was no signal: at the latest when the SigInt is destroyed. *)
Theorem C117_no_signal_refuted : exists es s, run (init [Make; Destroy]) es = Some s /\ ~ In Signal es /\ calm (init [Make; Destroy]) es /\ calls s = 1.
Proof. exists [User; User; User; User; Worker; User; User; User]. eexists. split; [vm_compute; reflexivity|]. split; [cbn; intuition discriminate|]. split; [|reflexivity]. vm_compute. repeat split; try discriminate. intros _ _. constructor. Qed.
(** A signal handler in progress when a SigInt is destroyed: it sends to a closed socket, and no SigInt can be made any more. *)
Theorem C117_in_progress_refuted : exists es s, run (init [Make; Destroy; Make; Make]) es = Some s /\ bad s = true /\ ph s = Idle /\ prog s = [] /\ thrown s = 2 /\ stuck s /\ onsig s = Fd 0.
Proof.
  exists ([User; User; Signal; Handler 0; Handler 0; User; User; Worker; User; User; User; Handler 0; Handler 0; User; User]). eexists. split; [vm_compute; reflexivity|]. repeat split.
  intros [| |[|i]|] H; try reflexivity; [destruct i; reflexivity|easy].
Qed.

(** Two SigInts, with a signal for each; for the second, two signal handlers at once. *)
Example C117_example :
  let es := [User; User; Signal; Handler 0; Handler 0; Handler 0; Handler 0; Worker; User; User; User; User; User] ++
            [User; User; Signal; Signal; Handler 1; Handler 2; Handler 1; Handler 2; Handler 1; Handler 1; Worker] in
  exists s, run (init [Make; Destroy; Make]) es = Some s /\ calm (init [Make; Destroy; Make]) es /\ ph s = Alive /\ asked s = 2 /\ told s = 1 /\ calls s = 1 /\ quiet s /\ stuck s /\ fd s = 1.
Proof.
  eexists. split; [vm_compute; reflexivity|]. split; [vm_compute; repeat split; try discriminate; intros _ _; repeat constructor|]. repeat split; try reflexivity; [repeat constructor|].
  intros [| |[|[|[|i]]]|] H; try reflexivity; [destruct i; reflexivity|easy].
Qed.

Print Assumptions C117_once.
Print Assumptions C117_called.
Print Assumptions C117_safe_partial.
Print Assumptions C117_signal_partial.
Print Assumptions C117_ends.
Print Assumptions C117_no_signal_refuted.
Print Assumptions C117_in_progress_refuted.

(** Signals are handled exactly while a SigInt exists: from the end of its constructor to the beginning of its destructor. *)
Theorem C117_handled : forall p es s, run (init p) es = Some s ->
  exists s', step s Signal = Some s' /\ (ph s = Alive -> asked s' = asked s + 1 /\ nth_error (hs s') (length (hs s)) = Some Called) /\ (ph s <> Alive -> s' = s).
Proof.
  intros p es s R.
  assert (K : forall es s0, run s0 es = Some s -> (ph s0 = Alive <-> installed s0 = true) -> (ph s = Alive <-> installed s = true)).
  { clear. induction es as [|e es IH]; intros s0 R H; cbn [run] in R; [now injection R as <-|]. destruct (step s0 e) as [s1|] eqn:E; [|discriminate]. apply (IH _ R). clear IH R.
    destruct e as [| |i|]; cbn [step] in E.
    - unfold user in E. destruct (ph s0) eqn:P; [destruct (prog s0) as [|[|] r]; [discriminate| |]; [destruct (onsig s0)|]|..]; try (destruct (prog s0) as [|[|] r]; try discriminate); try (destruct (fin s0); [|discriminate]); injection E as <-; cbn; rewrite ?P; try exact H; split; try discriminate; auto;
        intro Z; apply H in Z; discriminate.
    - unfold worker in E. destruct (isopen s0 && negb (fin s0) && (0 <? q s0)); [|discriminate]. injection E as <-. exact H.
    - unfold handler, send in E. inv1 E; exact H.
    - destruct (installed s0) eqn:IN; injection E as <-; cbn; [exact H|now rewrite IN]. }
  specialize (K es _ R). assert (K0 : ph (init p) = Alive <-> installed (init p) = true) by (cbn; split; discriminate). specialize (K K0).
  cbn [step]. destruct (installed s) eqn:IN; eexists; (split; [reflexivity|]).
  - cbn. split; [|intro Z; exfalso; apply Z, K; reflexivity]. intros _. split; [reflexivity|]. rewrite nth_error_app2 by lia. now rewrite Nat.sub_diag.
  - split; [|auto]. intro Z. apply K in Z. discriminate.
Qed.

Print Assumptions C117_handled.
