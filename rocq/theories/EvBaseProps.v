(** C42: actions given to an event loop are executed exactly once and in order; call() returns after
    its action.  C52: wait() of a client operation. *)
From Coq Require Import List Bool Arith Lia.
From Verif Require Import EvBaseModel.
Import ListNotations.

(** the actions refused or accepted, from the events alone: not accepted after [Stop] *)
Section EvBase.
Variable throws : nat -> bool.
Notation step := (step throws).
Notation run := (run throws).
Notation s_ es := (run es new_evbase).

Lemma run_snoc : forall es e s, run (es ++ [e]) s = step (run es s) e.
Proof. intros. unfold run. rewrite fold_left_app. reflexivity. Qed.

Ltac brk s e :=
  destruct s as [q tm td rn lv ex th sg ac ra rt]; destruct e as [t id|t id|t|t| | | | |];
  cbv [EvBaseModel.step]; cbn [threads signal running leaving exited todo timers queue];
  [ destruct (th t) eqn:TH | destruct (th t) eqn:TH | destruct (th t) as [|w|] eqn:TH
  | destruct (th t) as [| |id] eqn:TH; [| |destruct (sg t) as [ok|] eqn:SG]
  | | destruct rn | destruct ex, td as [|w td], tm as [|[|] tm] | destruct td as [|w td] | destruct lv, td as [|w td] ];
  cbv [push add return_ wake exec stop exit_ leave]; cbn [threads signal running leaving exited todo timers queue accepted ran returned];
  try solve [auto];
  try (destruct rn; cbn [threads signal running leaving exited todo timers queue accepted ran returned]; try solve [auto]).

Definition inv (s : evbase) : Prop :=
  accepted s = ran s ++ map w_id (todo s) ++ map w_id (queue s).
Lemma inv_step : forall s e, inv s -> inv (step s e).
Proof.
  intros s e. unfold inv. brk s e; cbn [map app]; intros ->;
    repeat rewrite map_app; cbn [map app w_id]; repeat rewrite <- app_assoc; auto; cbn [app]; rewrite ?app_nil_r; auto.
Qed.
Lemma inv_run : forall es, inv (s_ es).
Proof.
  intros es. induction es as [|e es IH] using rev_ind; [reflexivity|]. rewrite run_snoc. apply inv_step; auto.
Qed.

(** what was executed, what the worker took and what is queued, are together what was accepted: every
    action is executed at most once, in the order of acceptance, none is skipped *)
Theorem C42_order : forall es,
  exists rest, accepted (s_ es) = ran (s_ es) ++ rest.
Proof. intros es. eexists. apply (inv_run es). Qed.

(** after accepted: nothing is unaccepted, nothing unexecuted *)
Lemma accepted_mono : forall es es', exists l, accepted (s_ (es ++ es')) = accepted (s_ es) ++ l.
Proof.
  intros es es'. induction es' as [|e es' IH] using rev_ind.
  - exists []. rewrite !app_nil_r. reflexivity.
  - destruct IH as [l E]. rewrite app_assoc, run_snoc. set (s := s_ (es ++ es')) in *.
    assert (X : exists l', accepted (step s e) = accepted s ++ l').
    { clearbody s. clear. brk s e; try (exists []; rewrite app_nil_r; reflexivity); eexists; reflexivity. }
    destruct X as [l' ->]. rewrite E. exists (l ++ l'). rewrite app_assoc. reflexivity.
Qed.
Theorem C42_never_undone : forall es es',
  exists l, ran (s_ (es ++ es')) = ran (s_ es) ++ l.
Proof.
  intros es es'. induction es' as [|e es' IH] using rev_ind.
  - exists []. rewrite !app_nil_r. reflexivity.
  - destruct IH as [l E]. rewrite app_assoc, run_snoc. set (s := s_ (es ++ es')) in *.
    assert (X : exists l', ran (step s e) = ran s ++ l').
    { clearbody s. clear. brk s e; try (exists []; rewrite app_nil_r; reflexivity); eexists; reflexivity. }
    destruct X as [l' ->]. rewrite E. exists (l ++ l'). rewrite app_assoc. reflexivity.
Qed.

(** what dispatch() and call() accept: everything before join(), in the order of the calls *)
Definition pushes (e : event) : option (nat * nat) := match e with Dispatch t id | Call t id => Some (t, id) | _ => None end.
Theorem C42_accepts : forall es e t id, pushes e = Some (t, id) -> ~ In Stop es -> threads (s_ es) t = Free ->
  accepted (s_ (es ++ [e])) = accepted (s_ es) ++ [id].
Proof.
  intros es e t id P N F. rewrite run_snoc.
  assert (R : running (s_ es) = true).
  { clear F. induction es as [|x es IH] using rev_ind; [reflexivity|]. rewrite run_snoc.
    assert (A : running (s_ es) = true) by (apply IH; intros X; apply N, in_or_app; auto).
    assert (B : x <> Stop) by (intros ->; apply N, in_or_app; right; left; reflexivity).
    revert A. set (s := s_ es). clearbody s. clear -B. brk s x; congruence. }
  destruct e; inversion P; subst; cbn [EvBaseModel.step]; rewrite F; unfold push; rewrite R; reflexivity.
Qed.
Theorem C42_refuses : forall es e t id, pushes e = Some (t, id) -> In Stop es ->
  s_ (es ++ [e]) = s_ es.
Proof.
  intros es e t id P N. rewrite run_snoc.
  assert (R : running (s_ es) = false).
  { induction es as [|x es IH] using rev_ind; [destruct N|]. rewrite run_snoc.
    apply in_app_or in N. destruct N as [N|[->|[]]].
    - revert IH. intros IH. specialize (IH N). revert IH. set (s := s_ es). clearbody s. clear. brk s x; congruence.
    - reflexivity. }
  destruct e; inversion P; subst; cbn [EvBaseModel.step]; unfold push; rewrite R; destruct (threads (s_ es) t); reflexivity.
Qed.

(** ** call() *)
Definition mine (t : nat) (l : list work) : list work :=
  filter (fun w => match w_caller w with Some c => c =? t | None => false end) l.
Lemma mine_app : forall t l l', mine t (l ++ l') = mine t l ++ mine t l'.
Proof. intros. apply filter_app. Qed.
Definition ok1 (u : nat) (th : thread) (sg : option bool) (l : list work) (r : list nat) : Prop :=
  match th with
  | Waiting id | Adding (Some id) =>
    (sg = None /\ mine u l = [{| w_id := id; w_caller := Some u |}]) \/
    (sg = Some (negb (throws id)) /\ mine u l = [] /\ In id r)
  | Free | Adding None => sg = None /\ mine u l = []
  end.
Definition inv2 (s : evbase) : Prop :=
  (forall t, ok1 t (threads s t) (signal s t) (todo s ++ queue s) (ran s)) /\
  (forall t id ok, In (t, id, ok) (returned s) -> In id (ran s) /\ ok = negb (throws id)).
Lemma inv2_push : forall s t id c, threads s t = Free -> inv2 s -> inv2 (push s t id c).
Proof.
  intros s t id c TH (A & B). unfold push. destruct (running s); [|split; auto].
  split; [|exact B]. intros u. specialize (A u). cbn [threads signal queue todo ran].
  rewrite app_assoc. unfold ok1 in *. rewrite mine_app. unfold upd. destruct (u =? t) eqn:UT.
  - apply Nat.eqb_eq in UT. subst u. rewrite TH in A. destruct A as (A1 & A2). rewrite A1, A2.
    destruct (queue s), c; cbn [mine filter w_caller app]; rewrite ?Nat.eqb_refl; auto.
  - assert (M : mine u [{| w_id := id; w_caller := if c then Some t else None |}] = []).
    { destruct c; cbn [mine filter w_caller]; rewrite ?(Nat.eqb_sym t u), ?UT; reflexivity. }
    rewrite M, app_nil_r. exact A.
Qed.
Lemma inv2_step : forall s e, inv2 s -> inv2 (step s e).
Proof.
  intros s e I. destruct e as [t id|t id|t|t| | | | |]; cbn [EvBaseModel.step].
  - destruct (threads s t) eqn:TH; auto. apply inv2_push; auto.
  - destruct (threads s t) eqn:TH; auto. apply inv2_push; auto.
  - destruct (threads s t) as [|w|] eqn:TH; auto. destruct I as (A & B). split; [|exact B].
    intros u. specialize (A u). cbn [add threads signal queue todo ran]. unfold upd. destruct (u =? t) eqn:UT; [|exact A].
    apply Nat.eqb_eq in UT. subst u. rewrite TH in A. destruct w; exact A.
  - destruct (threads s t) as [| |id] eqn:TH; auto. destruct (signal s t) as [ok|] eqn:SG; auto.
    destruct I as (A & B). pose proof (A t) as At. rewrite TH, SG in At. destruct At as [(X & _)|(X & M & R)]; [discriminate|].
    injection X as ->. split.
    + intros u. specialize (A u). cbn [return_ threads signal queue todo ran]. unfold upd. destruct (u =? t) eqn:UT; [|exact A].
      apply Nat.eqb_eq in UT. subst u. split; auto.
    + cbn [return_ returned ran]. intros t' id' ok' H. apply in_app_or in H. destruct H as [H|[H|[]]]; [exact (B _ _ _ H)|].
      injection H as <- <- <-. auto.
  - exact I.
  - destruct (running s); exact I.
  - unfold wake. destruct (exited s); auto. destruct (todo s) eqn:TD; auto. destruct (timers s) as [|[|] tm]; auto;
      destruct I as (A & B); (split; [|exact B]); intros u; specialize (A u); cbn [threads signal queue todo ran];
      rewrite TD in A; rewrite ?TD, ?app_nil_r in *; exact A.
  - unfold exec. destruct (todo s) as [|w l] eqn:TD; auto. destruct I as (A & B). split.
    + intros u. specialize (A u). cbn [threads signal queue todo ran]. rewrite TD in A. cbn [app] in A.
      destruct w as [id c]. cbn [w_caller w_id].
      assert (K : forall x, In x (ran s) -> In x (ran s ++ [id])) by (intros; apply in_or_app; auto).
      assert (Z : forall th sg, ok1 u th sg (l ++ queue s) (ran s) -> ok1 u th sg (l ++ queue s) (ran s ++ [id])).
      { intros th sg. unfold ok1. destruct th as [|[wi|]|wi]; auto; intros [Z|(Z1 & Z2 & Z3)]; auto. }
      destruct c as [t|].
      * unfold upd. destruct (u =? t) eqn:UT.
        -- apply Nat.eqb_eq in UT. subst u. unfold ok1 in *. cbn [mine filter w_caller] in A. rewrite Nat.eqb_refl in A.
           fold (mine t (l ++ queue s)) in A.
           destruct (threads s t) as [|[wi|]|wi].
           ++ destruct A; discriminate.
           ++ destruct A as [(A1 & A2)|(_ & A2 & _)]; [|discriminate]. injection A2 as -> A2. right. rewrite A2. split; auto. split; auto. apply in_or_app; right; left; reflexivity.
           ++ destruct A; discriminate.
           ++ destruct A as [(A1 & A2)|(_ & A2 & _)]; [|discriminate]. injection A2 as -> A2. right. rewrite A2. split; auto. split; auto. apply in_or_app; right; left; reflexivity.
        -- apply Z. unfold ok1 in *. cbn [mine filter w_caller] in A. rewrite (Nat.eqb_sym t u), UT in A. exact A.
      * apply Z. exact A.
    + cbn [returned ran]. intros t' id' ok' H. destruct (B _ _ _ H). split; auto. apply in_or_app; auto.
  - unfold leave. destruct (leaving s), (todo s) eqn:TD; auto; destruct I as (A & B); split; auto; intros u; specialize (A u); cbn [threads signal queue todo ran];
     rewrite TD in *; exact A.
Qed.
Lemma inv2_run : forall es, inv2 (s_ es).
Proof.
  intros es. induction es as [|e es IH] using rev_ind; [split; [intros t; cbn; auto|intros ? ? ? []]|].
  rewrite run_snoc. apply inv2_step; auto.
Qed.

(** call() returns only after its action was executed; it throws if and only if the action did *)
Theorem C42_call_returns : forall es t id ok,
  In (t, id, ok) (returned (s_ es)) -> In id (ran (s_ es)) /\ (ok = false <-> throws id = true).
Proof.
  intros es t id ok H. destruct (inv2_run es) as (_ & B). destruct (B _ _ _ H) as (R & ->). split; auto.
  destruct (throws id); split; auto; discriminate.
Qed.
(** the thread waits for the action it gave *)
Theorem C42_call_own : forall es t id, threads (s_ es) t = Free ->
  returned (s_ (es ++ [Call t id; Return t])) = returned (s_ es).
Proof.
  intros es t id F. change [Call t id; Return t] with ([Call t id] ++ [Return t]). rewrite app_assoc, !run_snoc.
  set (s := s_ es) in *. assert (SG : signal s t = None).
  { destruct (inv2_run es) as (A & _). specialize (A t). fold s in A. rewrite F in A. apply A. }
  cbn [EvBaseModel.step]. rewrite F. unfold push. destruct (running s).
  - cbn [threads signal]. unfold upd. rewrite Nat.eqb_refl. destruct (queue s); [reflexivity|]. rewrite SG. reflexivity.
  - rewrite F. reflexivity.
Qed.

(** ** no action is forgotten *)
Definition inv3 (s : evbase) : Prop :=
  queue s <> [] -> In DoWork (timers s) \/ exists t w, threads s t = Adding w.
Lemma inv3_step : forall s e, inv3 s -> inv3 (step s e).
Proof.
  intros s e. unfold inv3. destruct s as [q tm td rn lv ex th sg ac ra rt]; destruct e as [t id|t id|t|t| | | | |];
    cbn [EvBaseModel.step threads signal queue timers]; intros I.
  1,2: destruct (th t) eqn:TH; auto; unfold push; cbn [running]; destruct rn; auto; cbn [queue timers threads]; intros _;
    (destruct q as [|w0 q]; [right; exists t; eexists; unfold upd; rewrite Nat.eqb_refl; reflexivity|];
     destruct I as [I|(t' & w' & I)]; [discriminate|auto|]; right; exists t', w'; unfold upd; destruct (t' =? t) eqn:E; auto;
     apply Nat.eqb_eq in E; subst; congruence).
  - destruct (th t) eqn:TH; auto. intros _. left. cbn [add timers]. unfold schedule. apply in_or_app. right. left. reflexivity.
  - destruct (th t) eqn:TH; auto. destruct (sg t); auto. cbn [return_ queue timers threads]. intros Q.
    destruct (I Q) as [I'|(t' & w' & I')]; auto. right. exists t', w'. unfold upd. destruct (t' =? t) eqn:E; auto.
    apply Nat.eqb_eq in E; subst; congruence.
  - exact I.
  - cbn [running]. destruct rn; auto. cbn [exit_ queue timers threads]. intros Q. destruct (I Q) as [I'|I']; auto. left. apply in_or_app. auto.
  - unfold wake. cbn [exited todo timers]. destruct ex; auto. destruct td; auto. destruct tm as [|[|] tm]; auto; cbn [queue timers threads].
    + congruence.
    + intros Q. destruct (I Q) as [[I'|I']|I']; auto. discriminate.
  - unfold exec. cbn [todo]. destruct td; auto.
  - unfold leave. cbn [leaving todo]. destruct lv, td; auto.
Qed.
Lemma inv3_run : forall es, inv3 (s_ es).
Proof.
  intros es. induction es as [|e es IH] using rev_ind; [intros H; elim H; reflexivity|]. rewrite run_snoc. apply inv3_step; auto.
Qed.
(** when the loop has nothing left to do (no timer scheduled, doWork() done) and no thread is about to
    wake it, every action accepted was executed and no thread waits in call() for an action *)
Theorem C42_none_forgotten : forall es,
  timers (s_ es) = [] -> todo (s_ es) = [] -> (forall t w, threads (s_ es) t <> Adding w) ->
  ran (s_ es) = accepted (s_ es) /\ forall t id, threads (s_ es) t = Waiting id -> signal (s_ es) t <> None.
Proof.
  intros es T D N. pose proof (inv_run es) as I. pose proof (inv3_run es) as I3. destruct (inv2_run es) as (I2 & _).
  unfold inv in I. unfold inv3 in I3. rewrite T in I3. rewrite D in I.
  assert (Q : queue (s_ es) = []).
  { destruct (queue (s_ es)); auto. destruct I3 as [[]|(t & w1 & X)]; [discriminate|]. elim (N _ _ X). }
  rewrite Q in I. cbn in I. rewrite app_nil_r in I. split; [congruence|].
  intros t id W X. specialize (I2 t). rewrite W, X, D, Q in I2. cbn in I2. destruct I2 as [(_ & Z)|(Z & _)]; discriminate.
Qed.

(** before join() the loop is always able to get there: whatever has happened, event_add() of the
    threads at it, and the worker, suffice to execute all actions accepted so far *)
Lemma no_exit : forall es, ~ In Stop es -> running (s_ es) = true /\ exited (s_ es) = false /\ leaving (s_ es) = false /\ (timers (s_ es) = [] \/ timers (s_ es) = [DoWork]).
Proof.
  intros es. induction es as [|e es IH] using rev_ind; [intros _; cbn; auto|].
  intros N. rewrite run_snoc. assert (A : e <> Stop) by (intros ->; apply N, in_or_app; right; left; reflexivity).
  assert (B : ~ In Stop es) by (intros X; apply N, in_or_app; auto). specialize (IH B). revert A IH. set (s := s_ es). clearbody s. clear.
  intros A. intros (I1 & I2 & I3 & I4). destruct e as [t id|t id|t|t| | | | |]; cbn [EvBaseModel.step]; [| | | |congruence| | | |].
  - destruct (threads s t); auto. unfold push. rewrite I1. auto.
  - destruct (threads s t); auto. unfold push. rewrite I1. auto.
  - destruct (threads s t); auto. cbn [add running exited leaving timers]. repeat split; auto. right. destruct I4 as [-> | ->]; reflexivity.
  - destruct (threads s t); auto. destruct (signal s t); auto.
  - rewrite I1. auto.
  - unfold wake. rewrite I2. destruct (todo s); auto. destruct I4 as [T|T]; rewrite T; cbn [running exited leaving timers]; auto.
  - unfold exec. destruct (todo s); auto.
  - unfold leave. rewrite I3. auto.
Qed.
Definition progress (e : event) : Prop := match e with Add _ | Wake | Exec => True | _ => False end.
Lemma drain : forall n s, length (todo s) = n ->
  exists es, Forall progress es /\ todo (run es s) = [] /\ queue (run es s) = queue s /\ timers (run es s) = timers s /\
  threads (run es s) = threads s /\ exited (run es s) = exited s /\ accepted (run es s) = accepted s.
Proof.
  induction n as [|n IH]; intros s L.
  - exists []. cbn. split; [constructor|]. destruct (todo s); [auto 10|discriminate].
  - destruct (todo s) as [|w l] eqn:TD; [discriminate|]. destruct (IH (step s Exec)) as (es & F & A).
    { cbn [EvBaseModel.step]. unfold exec. rewrite TD. cbn. cbn in L. lia. }
    exists (Exec :: es). split; [constructor; [exact Logic.I|exact F]|]. cbn [EvBaseModel.run fold_left] in *.
    unfold run in *. cbn [fold_left] in *.
    destruct A as (A1 & A2 & A3 & A4 & A5 & A6). cbn [EvBaseModel.step] in *. unfold exec in *. rewrite TD in *. cbn in *. repeat split; auto.
Qed.
Lemma run_app : forall es es' s, run (es ++ es') s = run es' (run es s).
Proof. intros. unfold run. apply fold_left_app. Qed.
Theorem C42_can_finish : forall es, ~ In Stop es ->
  exists es', Forall progress es' /\ ran (s_ (es ++ es')) = accepted (s_ es).
Proof.
  intros es N. destruct (no_exit es N) as (_ & X & _ & T).
  destruct (drain _ _ (eq_refl (length (todo (s_ es))))) as (e1 & F1 & D1 & Q1 & T1 & TH1 & X1 & A1).
  assert (W : queue (s_ es) = [] \/ exists e2, Forall progress e2 /\
    let s := run e2 (run e1 (s_ es)) in timers s = [DoWork] /\ todo s = [] /\ exited s = false /\ accepted s = accepted (s_ es)).
  { destruct (queue (s_ es)) as [|w q] eqn:Q; [auto|right]. destruct (inv3_run es) as [I|(t & w' & I)]; [congruence| |].
    - exists []. cbn. split; [constructor|]. rewrite T1, D1, X1, A1. destruct T as [T|T]; [rewrite T in I; destruct I|]. rewrite T. auto.
    - exists [Add t]. split; [repeat constructor|]. change (run [Add t] (run e1 (s_ es))) with (step (run e1 (s_ es)) (Add t)). cbn [EvBaseModel.step]. rewrite TH1, I. cbn [add timers todo exited accepted]. rewrite T1, D1, X1, A1.
      repeat split; auto. destruct T as [-> | ->]; reflexivity. }
  destruct W as [Q|(e2 & F2 & T2 & D2 & X2 & A2)].
  - exists e1. split; auto. rewrite run_app. pose proof (inv_run (es ++ e1)) as I. unfold inv in I. rewrite run_app in I. rewrite D1, Q1, Q, A1 in I. cbn in I.
    rewrite app_nil_r in I. auto.
  - set (s2 := run e2 (run e1 (s_ es))) in *.
    destruct (drain _ _ (eq_refl (length (todo (step s2 Wake))))) as (e3 & F3 & D3 & Q3 & T3 & TH3 & X3 & A3).
    exists (e1 ++ e2 ++ [Wake] ++ e3). split; [repeat (apply Forall_app; split; auto); repeat constructor|].
    pose proof (inv_run (es ++ e1 ++ e2 ++ [Wake] ++ e3)) as I. unfold inv in I. rewrite !run_app in *. fold s2 in I |- *.
    change (run [Wake] s2) with (step s2 Wake) in *. rewrite D3, Q3, A3 in I. cbn [EvBaseModel.step] in I |- *. unfold wake in *. rewrite X2, D2, T2 in *.
    cbn [queue accepted] in I. cbn in I. rewrite app_nil_r in I. rewrite <- I. exact A2.
Qed.

(** ** join() *)
(** actions accepted are executed before the loop ends, provided that no thread is between the two
    halves of dispatch() or call() when join() calls event_base_loopexit() *)
Definition inv4 (s : evbase) : Prop :=
  running s = false /\ (forall t w, threads s t <> Adding w) /\ (queue s <> [] -> leaving s = false /\ exists l, timers s = DoWork :: l) /\
  (exited s = true -> queue s = [] /\ todo s = []).
Lemma inv4_step : forall s e, inv4 s -> inv4 (step s e).
Proof.
  intros s e I. pose proof I as (R & TH & Q & X). destruct e as [t id|t id|t|t| | | | |]; cbn [EvBaseModel.step]; try (unfold push; rewrite R).
  1,2: destruct (threads s t); exact I.
  - destruct (threads s t) eqn:E; try exact I. elim (TH _ _ E).
  - destruct (threads s t) eqn:E; try exact I. destruct (signal s t); try exact I.
    split; [exact R|]. split; [|auto]. intros u w. cbn [return_ threads]. unfold upd. destruct (u =? t); [discriminate|apply TH].
  - split; [reflexivity|]. auto.
  - split; [exact R|]. split; [exact TH|]. cbn [exit_ queue leaving timers exited todo]. split; [|exact X].
    intros NQ. destruct (Q NQ) as (L & l & T). split; auto. rewrite T. cbn [app]. eauto.
  - unfold wake. destruct (exited s) eqn:E; [exact I|].
    destruct (todo s) eqn:TD; [|exact I].
    destruct (timers s) as [|[|] l] eqn:T; [exact I| |]; (split; [exact R|]); (split; [exact TH|]); cbn [queue leaving timers exited todo]; split; auto; try congruence.
    intros NQ. destruct (Q NQ) as (_ & l' & ?). discriminate.
  - unfold exec. destruct (todo s) as [|w l] eqn:TD; [exact I|].
    split; [exact R|]. split; [exact TH|]. cbn [queue leaving timers exited todo]. split; [exact Q|]. intros E. destruct (X E). discriminate.
  - unfold leave. destruct (leaving s) eqn:L; [|exact I]. destruct (todo s) eqn:TD; [|exact I].
    split; [exact R|]. split; [exact TH|]. cbn [queue leaving timers exited todo]. split; [intros NQ; destruct (Q NQ); congruence|].
    intros _. split; auto. destruct (queue s) as [|w q]; auto. destruct Q as (Z & _); [congruence|]. congruence.
Qed.
Lemma stopped : forall es, ~ In Exit es -> leaving (s_ es) = false /\ exited (s_ es) = false /\ (timers (s_ es) = [] \/ timers (s_ es) = [DoWork]).
Proof.
  intros es. induction es as [|e es IH] using rev_ind; [intros _; cbn; auto|].
  intros N. rewrite run_snoc. assert (A : e <> Exit) by (intros ->; apply N, in_or_app; right; left; reflexivity).
  assert (B : ~ In Exit es) by (intros X; apply N, in_or_app; auto). specialize (IH B). revert A IH. set (s := s_ es). clearbody s. clear.
  intros A (I3 & I2 & I4). destruct e as [t id|t id|t|t| | | | |]; cbn [EvBaseModel.step]; [| | | | |congruence| | |].
  - destruct (threads s t); auto. unfold push. destruct (running s); auto.
  - destruct (threads s t); auto. unfold push. destruct (running s); auto.
  - destruct (threads s t); auto. cbn [add running exited leaving timers]. repeat split; auto. right. destruct I4 as [-> | ->]; reflexivity.
  - destruct (threads s t); auto. destruct (signal s t); auto.
  - auto.
  - unfold wake. rewrite I2. destruct (todo s); auto. destruct I4 as [T|T]; rewrite T; cbn [running exited leaving timers]; auto.
  - unfold exec. destruct (todo s); auto.
  - unfold leave. rewrite I3. auto.
Qed.
Lemma stop_false : forall es, In Stop es -> running (s_ es) = false.
Proof.
  intros es. induction es as [|x es IH] using rev_ind; [intros []|]. intros N. rewrite run_snoc.
  apply in_app_or in N. destruct N as [N|[->|[]]].
  - specialize (IH N). revert IH. set (s := s_ es). clearbody s. clear. brk s x; congruence.
  - reflexivity.
Qed.
Theorem C42_join_partial : forall es es',
  In Stop es -> ~ In Exit es -> (forall t w, threads (s_ es) t <> Adding w) ->
  exited (s_ (es ++ es')) = true ->
  ran (s_ (es ++ es')) = accepted (s_ (es ++ es')) /\
  forall t id, threads (s_ (es ++ es')) t = Waiting id -> signal (s_ (es ++ es')) t <> None.
Proof.
  intros es es' ST NX NA EX. destruct (stopped es NX) as (L & X & T).
  assert (I : inv4 (s_ (es ++ es'))).
  { clear EX. induction es' as [|e es' IH] using rev_ind.
    - rewrite app_nil_r. split; [apply stop_false; auto|]. split; [auto|]. split; [|congruence].
      intros NQ. split; auto. destruct (inv3_run es NQ) as [I|(t & w & I)]; [|elim (NA _ _ I)].
      destruct T as [T|T]; rewrite T in *; [destruct I|eauto].
    - rewrite app_assoc, run_snoc. apply inv4_step; auto. }
  destruct I as (_ & _ & _ & I). destruct (I EX) as (Q & D). pose proof (inv_run (es ++ es')) as J. unfold inv in J. rewrite Q, D in J.
  cbn in J. rewrite app_nil_r in J. split; auto.
  intros t id W S. destruct (inv2_run (es ++ es')) as (I2 & _). specialize (I2 t). rewrite W, S, D, Q in I2. cbn in I2.
  destruct I2 as [(_ & Z)|(Z & _)]; discriminate.
Qed.
End EvBase.
Print Assumptions C42_order.
Print Assumptions C42_never_undone.
Print Assumptions C42_accepts.
Print Assumptions C42_refuses.
Print Assumptions C42_call_returns.
Print Assumptions C42_call_own.
Print Assumptions C42_none_forgotten.
Print Assumptions C42_can_finish.
Print Assumptions C42_join_partial.

(** Otherwise not: join() between the lock and event_add() of a call() in another thread.  The action
    was accepted, is never executed, and the thread waits forever. *)
Definition lost : list event := [Call 0 7; Stop; Exit; Wake; Leave; Add 0].
Theorem C42_join_refuted : forall throws es,
  let s := run throws (lost ++ es) new_evbase in
  accepted s = [7] /\ ran s = [] /\ threads s 0 = Waiting 7 /\ returned s = [].
Proof.
  intros throws es. cbv zeta.
  assert (X : let s := run throws (lost ++ es) new_evbase in
    accepted s = [7] /\ ran s = [] /\ threads s 0 = Waiting 7 /\ returned s = [] /\ running s = false /\ exited s = true /\ todo s = [] /\ signal s = (fun _ => None) /\ leaving s = true).
  { induction es as [|e es IH] using rev_ind; [cbn; auto 20|]. rewrite app_assoc, run_snoc.
    cbv zeta in *. destruct IH as (A & B & C & D & E & F & G & H & L). set (s := run throws (lost ++ es) new_evbase) in *. clearbody s.
    destruct e as [t id|t id|t|t| | | | |]; cbn [EvBaseModel.step].
    1,2: unfold push; rewrite E; destruct (threads s t); auto 20.
    - destruct (threads s t) eqn:TH; auto 20. cbn [add accepted ran threads returned running exited todo signal leaving]. repeat split; auto.
      unfold upd. destruct (0 =? t) eqn:Z; auto. apply Nat.eqb_eq in Z. subst t. congruence.
    - rewrite H. destruct (threads s t); auto 20.
    - cbn. auto 20.
    - rewrite E. cbn. auto 20.
    - unfold wake. rewrite F. auto 20.
    - unfold exec. rewrite G. auto 20.
    - unfold leave. rewrite L, G. cbn. auto 20. }
  cbv zeta in X. destruct X as (A & B & C & D & _). auto.
Qed.
Print Assumptions C42_join_refuted.

(** two threads, one action which throws, join(): all is executed in order and call() throws *)
Example C42_example :
  let es := [Dispatch 0 1; Call 1 2; Add 0; Dispatch 0 3; Wake; Exec; Exec; Return 1; Dispatch 1 4; Stop; Exec; Dispatch 0 5; Add 1; Exit; Wake; Exec; Wake; Leave] in
  let s := run (fun i => i =? 2) es new_evbase in
  accepted s = [1; 2; 3; 4] /\ ran s = [1; 2; 3; 4] /\ returned s = [(1, 2, false)] /\ exited s = true.
Proof. vm_compute. auto. Qed.
(** the hypotheses of [C42_join_partial] *)
Example C42_join_nonvacuous :
  let es := [Dispatch 0 1; Call 1 2; Add 0; Stop] in
  let s := run (fun _ => false) es new_evbase in
  In Stop es /\ ~ In Exit es /\ (forall t w, threads s t <> Adding w) /\ ran s = [] /\
  exited (run (fun _ => false) (es ++ [Exit; Wake; Exec; Exec; Wake; Leave]) new_evbase) = true.
Proof.
  cbv zeta. split; [cbn; auto|]. split; [cbn; intuition discriminate|]. split; [|vm_compute; auto].
  intros t w. cbn. unfold upd. destruct t as [|[|t]]; cbn; discriminate.
Qed.

(** ** ResultWaiter *)
(** the first result or interruption, from the events alone *)
Fixpoint first_answer (es : list wevent) : option answer :=
  match es with
  | [] => None
  | Complete r :: _ => Some (Result r)
  | Interrupt :: _ => Some Interrupted
  | _ :: es => first_answer es
  end.
Lemma wrun_snoc : forall es e s, wrun (es ++ [e]) s = wstep (wrun es s) e.
Proof. intros. unfold wrun. rewrite fold_left_app. reflexivity. Qed.
Notation w_ es := (wrun es new_waiter).
Lemma first_snoc : forall es e, first_answer (es ++ [e]) =
  match first_answer es with Some a => Some a | None => match e with Complete r => Some (Result r) | Interrupt => Some Interrupted | _ => None end end.
Proof.
  induction es as [|x es IH]; intros e; cbn; [destruct e; reflexivity|]. destruct x; auto.
Qed.
Definition of_outcome (o : outcome) : option answer := match o with Busy => None | Done r => Some (Result r) | Abort => Some Interrupted end.
Lemma outc_first : forall es, of_outcome (outc (w_ es)) = first_answer es.
Proof.
  intros es. induction es as [|e es IH] using rev_ind; [reflexivity|]. rewrite wrun_snoc, first_snoc, <- IH. set (s := w_ es). clearbody s. clear.
  destruct s as [o d g w a]. destruct e as [r| | |t|t|t|t]; cbn [wstep who sig due]; unfold complete, look; cbn [outc]; destruct o as [|v|]; cbn; auto;
    try (destruct d; cbn; auto); try (destruct (w t), g; cbn; auto); try (destruct (w t); cbn; auto).
Qed.
Lemma answers_first : forall es t a, In (t, a) (answers (w_ es)) -> a = Timeout \/ Some a = first_answer es.
Proof.
  intros es. induction es as [|e es IH] using rev_ind; [intros ? ? []|]. intros t a. rewrite wrun_snoc, first_snoc. pose proof (outc_first es) as O.
  set (s := w_ es) in *. clearbody s. intros H.
  assert (X : In (t, a) (answers s) \/ a = Timeout \/ Some a = of_outcome (outc s)).
  { revert H. destruct s as [o d g w l]. clear. destruct e as [r| | |u|u|u|u]; cbn [wstep who sig due]; unfold complete, look; cbn [outc]; destruct o as [|v|]; cbn [answers]; auto;
    try (destruct d; cbn [answers]; auto); try (destruct (w u), g; cbn [answers]; auto); try (destruct (w u); cbn [answers]; auto);
    intros H; try (apply in_app_or in H; destruct H as [H|[H|[]]]; auto; inversion H; cbn; auto). }
  destruct X as [X|[X|X]]; auto.
  - destruct (IH _ _ X) as [->|Y]; auto. rewrite <- Y. auto.
  - rewrite O in X. rewrite <- X. auto.
Qed.
(** every wait() which does not time out gives the first result or interruption, no matter how many
    follow, how many threads wait, and in which order *)
Theorem C52_first_wins : forall es t a, In (t, a) (answers (w_ es)) -> a = Timeout \/ first_answer es = Some a.
Proof. intros es t a H. destruct (answers_first es t a H); auto. Qed.

(** wait() after completion gives the result at once *)
Theorem C52_after : forall es t a, first_answer es = Some a -> who (w_ es) t = Away ->
  answers (w_ (es ++ [Wait t])) = answers (w_ es) ++ [(t, a)].
Proof.
  intros es t a F W. rewrite wrun_snoc. cbn [wstep]. rewrite W. pose proof (outc_first es) as O. rewrite F in O. unfold look.
  destruct (outc (w_ es)); cbn in O; try discriminate; injection O as <-; reflexivity.
Qed.

(** a thread blocked in wait() when no other is (at any time) wakes up *)
Definition alone (es : list wevent) (t : nat) : Prop := forall es1 es2 u, es = es1 ++ es2 -> who (w_ es1) u <> Away -> u = t.
Lemma alone_inv : forall es t, alone es t ->
  (outc (w_ es) = Busy -> due (w_ es) = 0 /\ sig (w_ es) = false /\ forall u, who (w_ es) u <> Woken) /\
  (outc (w_ es) <> Busy -> who (w_ es) t = Blocked -> due (w_ es) <> 0 \/ sig (w_ es) = true).
Proof.
  intros es t. induction es as [|e es IH] using rev_ind.
  { intros _. cbn. split; [repeat split; auto; discriminate|congruence]. }
  intros A. assert (A' : alone es t) by (intros es1 es2 u E; apply (A es1 (es2 ++ [e]) u); rewrite E, app_assoc; reflexivity).
  specialize (IH A'). pose proof (A' es [] ) as AL. rewrite app_nil_r in AL. rewrite wrun_snoc.
  assert (AL' : forall u, who (w_ es) u <> Away -> u = t) by (intros; apply AL; auto). clear AL A A'.
  set (s := w_ es) in *. clearbody s. clear es. destruct s as [o d g w l]. cbn [outc due sig who] in *.
  destruct IH as (I1 & I2).
  destruct e as [r| | |u|u|u|u]; cbn [wstep who sig due].
  - unfold complete. cbn [outc due]. destruct o; cbn [outc due sig who]; split; auto; try congruence. intros; left; lia.
  - unfold complete. cbn [outc due]. destruct o; cbn [outc due sig who]; split; auto; try congruence. intros; left; lia.
  - destruct d; cbn [outc due sig who]; [split; auto|]. split; [|auto]. intros B. destruct (I1 B); discriminate.
  - destruct (w u) eqn:W; [|split; auto..]. unfold look. cbn [outc]. destruct o; cbn [outc due sig who].
    + split; [|congruence]. intros _. destruct (I1 eq_refl) as (? & ? & NW). repeat split; auto. intros v. unfold upd. destruct (v =? u); [discriminate|auto].
    + split; [congruence|]. unfold upd. destruct (t =? u); [discriminate|auto].
    + split; [congruence|]. unfold upd. destruct (t =? u); [discriminate|auto].
  - destruct (w u) eqn:W; [split; auto| |split; auto]. destruct g; [|split; auto]. cbn [outc due sig who]. split.
    + intros B. destruct (I1 B) as (_ & ? & _). discriminate.
    + assert (u = t) by (apply AL'; rewrite W; discriminate). subst u. unfold upd. rewrite Nat.eqb_refl. discriminate.
  - destruct (w u) eqn:W; [split; auto..|]. unfold look. cbn [outc]. destruct o; cbn [outc due sig who].
    + destruct (I1 eq_refl) as (_ & _ & NW). elim (NW u W).
    + split; [congruence|]. unfold upd. destruct (t =? u); [discriminate|auto].
    + split; [congruence|]. unfold upd. destruct (t =? u); [discriminate|auto].
  - destruct (w u) eqn:W; [split; auto| |split; auto]. destruct g; [split; auto|]. cbn [outc due sig who]. split.
    + intros B. destruct (I1 B) as (? & ? & NW). repeat split; auto. intros v. unfold upd. destruct (v =? u); [discriminate|auto].
    + unfold upd. destruct (t =? u); [discriminate|auto].
Qed.
Theorem C52_woken_partial : forall es t a, alone es t -> first_answer es = Some a -> who (w_ es) t = Blocked ->
  exists es', (es' = [Wakeup t; Again t] \/ es' = [Signal; Wakeup t; Again t]) /\
    answers (w_ (es ++ es')) = answers (w_ es) ++ [(t, a)].
Proof.
  intros es t a A F B. pose proof (outc_first es) as O. rewrite F in O. destruct (alone_inv es t A) as (_ & X).
  assert (NB : outc (w_ es) <> Busy) by (intros Z; rewrite Z in O; discriminate).
  specialize (X NB B).
  assert (G : forall s, outc s = outc (w_ es) -> who s t = Blocked -> sig s = true -> answers (wstep (wstep s (Wakeup t)) (Again t)) = answers s ++ [(t, a)]).
  { intros s E1 E2 E3. cbn [wstep]. rewrite E2, E3. cbn [who]. unfold upd at 1. rewrite Nat.eqb_refl. unfold look. cbn [outc]. rewrite E1.
    destruct (outc (w_ es)) as [|v|]; cbn in O; try discriminate; inversion O; reflexivity. }
  destruct (sig (w_ es)) eqn:S.
  - exists [Wakeup t; Again t]. split; auto. unfold wrun at 1. rewrite fold_left_app. cbn [fold_left]. apply G; auto.
  - destruct X as [X|X]; [|congruence]. exists [Signal; Wakeup t; Again t]. split; auto. unfold wrun at 1. rewrite fold_left_app. cbn [fold_left].
    fold (w_ es). change (wstep (w_ es) Signal) with (match due (w_ es) with O => w_ es | S n => {| outc := outc (w_ es); due := n; sig := true; who := who (w_ es); answers := answers (w_ es) |} end). destruct (due (w_ es)) as [|n] eqn:D; [elim X; reflexivity|]. rewrite G; auto.
Qed.
(** With two threads in wait() only one is woken: the other one stays blocked forever, unless it gave
    a timeout. *)
Definition two : list wevent := [Wait 0; Wait 1; Complete 5; Signal; Wakeup 0; Again 0].
Theorem C52_refuted : forall es, (forall e, In e es -> e <> Expire 1) ->
  first_answer (two ++ es) = Some (Result 5) /\ who (w_ (two ++ es)) 1 = Blocked.
Proof.
  intros es NE. split; [reflexivity|].
  assert (X : who (w_ (two ++ es)) 1 = Blocked /\ due (w_ (two ++ es)) = 0 /\ sig (w_ (two ++ es)) = false /\ outc (w_ (two ++ es)) = Done 5).
  { induction es as [|e es IH] using rev_ind; [vm_compute; auto|]. rewrite app_assoc, wrun_snoc.
    destruct IH as (A & B & C & D); [intros x Hx; apply NE, in_or_app; auto|].
    assert (N : e <> Expire 1) by (apply NE, in_or_app; right; left; reflexivity).
    set (s := w_ (two ++ es)) in *. clearbody s. clear NE. destruct s as [o d g w l]. cbn [outc due sig who] in *. subst.
    destruct e as [r| | |u|u|u|u]; cbn [wstep complete look outc due sig who]; auto; destruct (w u) eqn:W; cbn [outc due sig who]; auto;
      unfold upd; destruct (1 =? u) eqn:U; auto; apply Nat.eqb_eq in U; subst u; congruence. }
  tauto.
Qed.
(** a thread alone, which times out once, waits again and gets the result; a second result is dropped *)
Example C52_example :
  let es := [Wait 0; Expire 0; Wait 0; Complete 5; Interrupt; Signal; Complete 6; Wakeup 0; Again 0; Wait 3] in
  answers (w_ es) = [(0, Timeout); (0, Result 5); (3, Result 5)] /\ first_answer es = Some (Result 5).
Proof. vm_compute. auto. Qed.
Print Assumptions C52_first_wins.
Print Assumptions C52_after.
Print Assumptions C52_woken_partial.
Print Assumptions C52_refuted.
