(** Links: no event is lost, taken twice or out of order, and all are taken in the end. *)
From Coq Require Import String ZArith List Bool Arith Lia Sorted.
From Verif Require Import Base BaseProofs WireModel TypeModel TextModel CopyModel GroupModel LinkModel LinkSpec LinkProofs2 LinkProofs3 LinkProofs4 LinkProofs5.
Import ListNotations.
Local Open Scope nat_scope.

Definition evs (c : nat) (x : ctx) : list mev := match x_chans x c with Some k => k_events k | None => [] end.
Definition gone (c : nat) (x : ctx) : Prop := x_chans x c = None /\ c < x_nc x.
Record quiet (x y : ctx) : Prop := {
  q_taken : forall c, taken c (x_out y) = taken c (x_out x);
  q_evs : forall c, evs c y = evs c x;
  q_nc : x_nc x <= x_nc y;
  q_none : forall c, c < x_nc x -> x_chans x c = None -> x_chans y c = None }.
Lemma quiet_refl x : quiet x x.
Proof. constructor; intros; try reflexivity; assumption. Qed.
Lemma quiet_trans x y z : quiet x y -> quiet y z -> quiet x z.
Proof.
  intros A B. constructor; intros.
  - rewrite (q_taken _ _ B). apply A.
  - rewrite (q_evs _ _ B). apply A.
  - pose proof (q_nc _ _ A). pose proof (q_nc _ _ B). lia.
  - apply (q_none _ _ B); [pose proof (q_nc _ _ A); lia|]. apply (q_none _ _ A); assumption.
Qed.
Lemma quiet_core x y : core x y -> quiet x y.
Proof.
  intros C. constructor.
  - apply C.
  - intros c. unfold evs. pose proof (co_chans _ _ C c) as H. destruct (x_chans y c) as [k|], (x_chans x c) as [m|]; try discriminate H; [|reflexivity].
    apply some_inj in H. destruct (kcore_inj _ _ H) as (_ & _ & -> & _). reflexivity.
  - rewrite (co_nc _ _ C). lia.
  - intros c _ H. pose proof (co_chans _ _ C c) as Q. rewrite H in Q. destruct (x_chans y c); [discriminate Q|reflexivity].
Qed.
Lemma quiet_set_chan c k m x : x_chans x c = Some k -> k_events m = k_events k -> quiet x (set_chan c (Some m) x).
Proof.
  intros E F. constructor; cbn; intros; try reflexivity.
  - unfold evs. cbn. destruct (Nat.eqb_spec c0 c) as [-> |]; [rewrite E; exact F|reflexivity].
  - destruct (Nat.eqb_spec c0 c) as [-> |]; [congruence|assumption].
Qed.
Lemma quiet_set_link i l x : quiet x (set_link i l x).
Proof. constructor; cbn; intros; try reflexivity; assumption. Qed.
Lemma quiet_subscribe c x : quiet x (subscribe c x).
Proof.
  unfold subscribe. destruct (x_chans x c) as [k|] eqn:E; [|apply quiet_refl]. eapply quiet_trans; [eapply (quiet_set_chan c k (k_with_open true k)); [exact E|reflexivity]|].
  apply quiet_core, core_emit. reflexivity.
Qed.
Lemma quiet_open i cf kd r t x : inv x -> quiet x (open_link i cf kd r t x).
Proof.
  intros I. unfold open_link. destruct (x_links x i); [apply quiet_refl|]. destruct (_ && _); [apply quiet_refl|]. destruct (is_nil _); [apply quiet_set_link|]. cbv zeta.
  assert (A : quiet x (fst (match find_chan (request cf) x with
     | Some c => (x, c)
     | None => (if x_running x then subscribe (x_nc x) (set_keys (if existsb (fun p => key_eqb (request cf) (fst p)) (x_keys x) then x_keys x else x_keys x ++ [(request cf, x_nc x)]) (S (x_nc x)) (set_chan (x_nc x) (Some (new_chan (request cf))) x))
                else set_keys (if existsb (fun p => key_eqb (request cf) (fst p)) (x_keys x) then x_keys x else x_keys x ++ [(request cf, x_nc x)]) (S (x_nc x)) (set_chan (x_nc x) (Some (new_chan (request cf))) x), x_nc x) end))).
  { destruct (find_chan _ x); [apply quiet_refl|]. cbn [fst].
    assert (B : forall keys, quiet x (set_keys keys (S (x_nc x)) (set_chan (x_nc x) (Some (new_chan (request cf))) x))).
    { intros keys. constructor; cbn; intros; try reflexivity; try lia.
      - unfold evs. cbn. destruct (Nat.eqb_spec c (x_nc x)) as [-> |]; [|reflexivity]. cbn. destruct (x_chans x (x_nc x)) eqn:Q; [|reflexivity]. pose proof (i_nc _ I _ _ Q). lia.
      - destruct (Nat.eqb_spec c (x_nc x)); [lia|assumption]. }
    destruct (x_running x); [eapply quiet_trans; [apply B|apply quiet_subscribe]|apply B]. }
  destruct (match find_chan (request cf) x with Some c => _ | None => _ end) as [x1 c]. cbn [fst] in A. destruct (x_chans x1 c) as [ch|] eqn:E; [|exact A].
  eapply quiet_trans; [exact A|].
  assert (B : forall l, quiet x1 (set_link i l (set_chan c (Some (k_with_links (place x1 (cf_order cf) i (k_links ch)) true ch)) x1))).
  { intros l. eapply quiet_trans; [eapply (quiet_set_chan c ch (k_with_links (place x1 (cf_order cf) i (k_links ch)) true ch)); [exact E|reflexivity]|apply quiet_set_link]. }
  destruct (if k_conn ch then _ else None) as [b|]; [|apply B]. eapply quiet_trans; [apply B|]. apply quiet_core, core_emit. intros d. destruct (_ || _); reflexivity.
Qed.
Lemma quiet_remove i x : quiet x (remove_link i x).
Proof.
  unfold remove_link. destruct (x_links x i) as [l|]; [|apply quiet_refl]. cbv zeta. destruct (l_chan l) as [c|]; [|apply quiet_set_link]. destruct (x_chans x c) as [k|] eqn:E; [|apply quiet_set_link].
  eapply quiet_trans; [apply (quiet_set_link i None)|]. eapply (quiet_set_chan c k); [exact E|reflexivity].
Qed.
Lemma quiet_init x : quiet x (init_links x).
Proof.
  unfold init_links. destruct (x_running x); [apply quiet_refl|]. assert (A : quiet x (set_running x)) by (constructor; cbn; intros; try reflexivity; assumption). revert A. generalize (set_running x) as y.
  induction (x_keys x) as [|p r IH]; intros y J; [exact J|]. cbn. apply IH. eapply quiet_trans; [exact J|]. destruct (x_chans y (snd p)) as [k|]; [|apply quiet_refl]. destruct (alive k); [apply quiet_subscribe|apply quiet_refl].
Qed.

Definition pushed (c : nat) (x : ctx) (e : event) : list mev :=
  match e with
  | ENet d ev => if Nat.eq_dec d c then match x_chans x c with Some k => if k_open k then [ev] else [] | None => [] end else []
  | _ => []
  end.
Lemma run_chan_tasks c x k e es ts : x_chans x c = Some k -> k_links k <> [] -> k_events k = e :: es -> run_chan c (set_tasks ts x) = set_tasks (ts ++ [TRun c]) (run_chan c x).
Proof.
  intros E NE EV. unfold run_chan. cbn [set_tasks x_chans]. rewrite E. unfold alive. destruct (k_links k) as [|a q]; [contradiction|]. cbn [is_nil negb]. rewrite EV.
  assert (TK : take c e (k_with_events es (k_notify k) k) (emit [OEvent c e] (set_tasks ts x)) = set_tasks ts (take c e (k_with_events es (k_notify k) k) (emit [OEvent c e] x))).
  { unfold take. destruct e; [destruct (k_conn _)| |]; reflexivity. }
  rewrite TK. set (x1 := take c e _ (emit [OEvent c e] x)). destruct (take_eq c e (k_with_events es (k_notify k) k) (emit [OEvent c e] x)) as (T1 & _). fold x1 in T1.
  cbn [set_tasks x_chans]. rewrite (T1 c), Nat.eqb_refl. reflexivity.
Qed.
(** what a turn of the worker does *)
Lemma work_cases x : inv x ->
  (x_tasks x = [] /\ work x = x) \/
  (exists t r, x_tasks x = t :: r /\ x_tasks (work x) = r /\ quiet x (work x) /\ quiet (work x) x) \/
  (exists c r k e es, x_tasks x = TRun c :: r /\ x_chans x c = Some k /\ k_links k <> [] /\ k_events k = e :: es /\
    let y := work x in let k' := k_with_events es (k_notify k) k in
    (forall j, x_chans y j = if Nat.eqb j c then Some (k_with_scan (wanted x true (k_links k)) (wanted x false (k_links k)) (took e k')) else x_chans x j) /\
    (forall i, x_links y i = option_map (retyped e k' i) (x_links x i)) /\
    x_nc y = x_nc x /\ x_keys y = x_keys x /\ x_tasks y = r ++ [TRun c] /\ x_out y = x_out x ++ OEvent c e :: processing x (k_links k) /\
    x_recs y = x_recs x /\ x_running y = x_running x).
Proof.
  intros I. unfold work. destruct (x_tasks x) as [|[c|c] r] eqn:T; [left; split; reflexivity| |].
  2:{ right. left. exists (TAfter c), r. split; [reflexivity|].
      assert (A : core (set_tasks r x) (after_put c (set_tasks r x))) by apply core_after_put.
      assert (B : forall l z, x_tasks (fold_left (fun x r => complete r x) l z) = x_tasks z).
      { induction l as [|a l IH]; intros z; [reflexivity|]. cbn. rewrite IH. unfold complete. destruct (r_pact _); reflexivity. }
      split; [unfold after_put; cbn; destruct (x_chans x c) as [k|]; [destruct (alive k); [rewrite B|]|]; reflexivity|].
      assert (Q : quiet x (set_tasks r x) /\ quiet (set_tasks r x) x) by (split; constructor; cbn; intros; try reflexivity; assumption). destruct Q as [Q1 Q2].
      split; [eapply quiet_trans; [exact Q1|apply quiet_core, A]|]. eapply quiet_trans; [apply quiet_core, core_sym, A|exact Q2]. }
  assert (ID : run_chan c (set_tasks r x) = set_tasks r x -> exists t r0, TRun c :: r = t :: r0 /\ x_tasks (run_chan c (set_tasks r x)) = r0 /\ quiet x (run_chan c (set_tasks r x)) /\ quiet (run_chan c (set_tasks r x)) x).
  { intros ->. exists (TRun c), r. split; [reflexivity|]. split; [reflexivity|]. split; constructor; cbn; intros; try reflexivity; assumption. }
  destruct (x_chans x c) as [k|] eqn:E; [|right; left; apply ID; unfold run_chan; cbn; rewrite E; reflexivity].
  destruct (k_links k) as [|a q] eqn:KL; [right; left; apply ID; unfold run_chan, alive; cbn; rewrite E, KL; reflexivity|].
  destruct (k_events k) as [|e es] eqn:EV.
  - right. left. exists (TRun c), r. split; [reflexivity|].
    assert (R : run_chan c (set_tasks r x) = set_chan c (Some (k_with_events [] true k)) (set_tasks r x)) by (unfold run_chan, alive; cbn; rewrite E, KL, EV; reflexivity). rewrite R. split; [reflexivity|].
    split; constructor; cbn; intros; try reflexivity; try lia.
    + unfold evs. cbn. destruct (Nat.eqb_spec c0 c) as [-> |]; [rewrite E, EV; reflexivity|reflexivity].
    + destruct (Nat.eqb_spec c0 c) as [-> |]; [congruence|assumption].
    + unfold evs. cbn. destruct (Nat.eqb_spec c0 c) as [-> |]; [rewrite E, EV; reflexivity|reflexivity].
    + destruct (Nat.eqb_spec c0 c) as [-> |]; [discriminate|assumption].
  - right. right. exists c, r, k, e, es. assert (NE : k_links k <> []) by (rewrite KL; discriminate). split; [reflexivity|]. split; [exact E|]. split; [exact NE|]. split; [exact EV|].
    cbv zeta. rewrite (run_chan_tasks c x k e es r E NE EV). pose proof (run_chan_event c x k e es I E NE EV) as H. cbv zeta in H. destruct H as (A1 & A2 & A3 & A4 & A5 & A6 & A7 & A8).
    cbn [set_tasks x_chans x_links x_nc x_keys x_tasks x_out x_recs x_running].
    split; [exact A1|]. split; [exact A2|]. split; [exact A3|]. split; [exact A4|]. split; [reflexivity|]. split; [exact A6|]. split; [exact A7|exact A8].
Qed.
Lemma account fp c x e y : inv x -> step fp x e = Some y ->
  (gone c x -> gone c y) /\ (gone c y \/ taken c (x_out y) ++ evs c y = taken c (x_out x) ++ evs c x ++ pushed c x e).
Proof.
  intros I H.
  assert (Q : quiet x y -> pushed c x e = [] -> (gone c x -> gone c y) /\ (gone c y \/ taken c (x_out y) ++ evs c y = taken c (x_out x) ++ evs c x ++ pushed c x e)).
  { intros Q P. split.
    - intros [A B]. split; [apply (q_none _ _ Q); assumption|pose proof (q_nc _ _ Q); lia].
    - right. rewrite (q_taken _ _ Q), (q_evs _ _ Q), P, app_nil_r. reflexivity. }
  destruct e; cbn [step] in H; try (injection H as <-).
  - apply Q; [apply quiet_open, I|reflexivity].
  - apply Q; [apply quiet_remove|reflexivity].
  - unfold free_chan in *. destruct (x_chans x c0) as [k|] eqn:E; [|apply Q; [apply quiet_refl|reflexivity]]. destruct (alive k) eqn:AL; [apply Q; [apply quiet_refl|reflexivity]|].
    unfold gone, evs. cbn. destruct (Nat.eqb_spec c c0) as [-> |N].
    + split; [intros [A B]; split; [reflexivity|exact B]|]. left. split; [reflexivity|]. exact (i_nc _ I _ _ E).
    + split; [exact (fun h => h)|]. right. rewrite app_nil_r. reflexivity.
  - apply Q; [apply quiet_init|reflexivity].
  - unfold net, pushed in *. destruct (Nat.eq_dec c0 c) as [-> |N].
    + destruct (x_chans x c) as [k|] eqn:E; [|split; [exact (fun h => h)|right; rewrite app_nil_r; reflexivity]]. destruct (k_open k) eqn:O; [|split; [exact (fun h => h)|right; rewrite app_nil_r; reflexivity]]. cbv zeta.
      split; [intros [A _]; congruence|]. right. unfold evs. rewrite E. destruct (_ && _); cbn; rewrite Nat.eqb_refl; reflexivity.
    + destruct (x_chans x c0) as [k|] eqn:E; [|split; [exact (fun h => h)|right; rewrite app_nil_r; reflexivity]]. destruct (k_open k) eqn:O; [|split; [exact (fun h => h)|right; rewrite app_nil_r; reflexivity]]. cbv zeta.
      unfold gone, evs. destruct (_ && _); cbn; (destruct (Nat.eqb_spec c c0); [congruence|]); (split; [exact (fun h => h)|right; rewrite app_nil_r; reflexivity]).
  - destruct (work_cases x I) as [[_ ->]|[(t & r & _ & _ & W & _)|(d & r & k & ev & es & _ & E & NE & EV & W)]].
    + split; [exact (fun h => h)|right; cbn; rewrite app_nil_r; reflexivity].
    + apply Q; [exact W|reflexivity].
    + cbv zeta in W. destruct W as (A1 & _ & A3 & _ & _ & A6 & _). unfold gone, evs. rewrite A1, A3, A6, taken_app. cbn [taken pushed]. rewrite processing_taken, app_nil_r.
      destruct (Nat.eqb_spec c d) as [-> |N].
      * split; [intros [A _]; congruence|]. right. destruct (Nat.eq_dec d d); [|contradiction]. rewrite E, EV. cbn [k_with_scan k_events]. destruct (took_rest ev (k_with_events es (k_notify k) k)) as (_ & _ & -> & _).
        cbn. rewrite <- app_assoc. reflexivity.
      * split; [exact (fun h => h)|]. right. destruct (Nat.eq_dec d c); [congruence|]. rewrite !app_nil_r. reflexivity.
  - apply Q; [eapply quiet_core, core_get; exact H|reflexivity].
  - apply Q; [eapply quiet_core, core_put_value; exact H|reflexivity].
  - apply Q; [eapply quiet_core, core_forward; exact H|reflexivity].
  - apply Q; [apply quiet_core, core_build|reflexivity].
  - apply Q; [apply quiet_core, core_done|reflexivity].
  - apply Q; [apply quiet_core, core_set_rec|reflexivity].
Qed.
Lemma account_run fp c h : forall x y, inv x -> run fp x h = Some y ->
  (gone c x -> gone c y) /\ (gone c y \/ taken c (x_out y) ++ evs c y = taken c (x_out x) ++ evs c x ++ queued fp c x h).
Proof.
  induction h as [|e r IH]; intros x y I H; cbn [run queued] in *.
  - injection H as <-. split; [exact (fun h => h)|]. right. rewrite app_nil_r. reflexivity.
  - destruct (step fp x e) as [z|] eqn:S; [|discriminate]. destruct (account fp c x e z I S) as [A B]. destruct (IH z y (inv_step _ _ _ _ I S) H) as [C D].
    split; [intros G; exact (C (A G))|]. destruct B as [B|B]; [left; exact (C B)|]. destruct D as [D|D]; [left; exact D|]. right. rewrite D. rewrite app_assoc, B. rewrite <- !app_assoc. reflexivity.
Qed.

(** liveness *)
Fixpoint total (f : nat -> nat) (n : nat) : nat := match n with O => O | S m => f m + total f m end.
Definition measure (x : ctx) : nat := total (fun c => length (evs c x)) (x_nc x) + length (x_tasks x).
Lemma total_ext f g n : (forall c, c < n -> f c = g c) -> total f n = total g n.
Proof. induction n as [|m IH]; intros H; [reflexivity|]. cbn. rewrite H by lia. rewrite IH by (intros; apply H; lia). reflexivity. Qed.
Lemma total_less f g n c : c < n -> f c = S (g c) -> (forall d, d <> c -> f d = g d) -> total f n = S (total g n).
Proof.
  intros L E H. induction n as [|m IH]; [lia|]. cbn. destruct (Nat.eq_dec c m) as [-> |N].
  - rewrite E. rewrite (total_ext f g m) by (intros d D; apply H; lia). lia.
  - rewrite IH by lia. rewrite (H m) by lia. lia.
Qed.
Lemma measure_work x : inv x -> x_tasks x <> [] -> measure x = S (measure (work x)).
Proof.
  intros I T. destruct (work_cases x I) as [[T0 _]|[(t & r & TT & T2 & W & W2)|(c & r & k & e & es & TT & E & NE & EV & W)]]; [contradiction| |].
  - unfold measure. rewrite TT, T2. cbn [length]. assert (x_nc (work x) = x_nc x) as -> by (pose proof (q_nc _ _ W); pose proof (q_nc _ _ W2); lia).
    rewrite (total_ext (fun c => length (evs c (work x))) (fun c => length (evs c x))) by (intros c _; rewrite (q_evs _ _ W); reflexivity). lia.
  - cbv zeta in W. destruct W as (A1 & _ & A3 & _ & A5 & _). unfold measure. rewrite TT, A3, A5. rewrite app_length. cbn [length].
    rewrite (total_less (fun c => length (evs c x)) (fun c => length (evs c (work x))) (x_nc x) c).
    + lia.
    + exact (i_nc _ I _ _ E).
    + unfold evs. rewrite A1, Nat.eqb_refl, E, EV. cbn [k_with_scan k_events]. destruct (took_rest e (k_with_events es (k_notify k) k)) as (_ & _ & -> & _). reflexivity.
    + intros d N. unfold evs. rewrite A1. destruct (Nat.eqb_spec d c); [contradiction|reflexivity].
Qed.
Lemma work_all fp n : forall x, inv x -> measure x <= n -> exists m y, m <= n /\ run fp x (repeat EWork m) = Some y /\ inv y /\ x_tasks y = [].
Proof.
  induction n as [|n IH]; intros x I M.
  - exists 0, x. cbn. split; [lia|]. split; [reflexivity|]. split; [exact I|]. unfold measure in M. destruct (x_tasks x); [reflexivity|cbn in M; lia].
  - destruct (x_tasks x) as [|t r] eqn:T; [exists 0, x; cbn; split; [lia|]; split; [reflexivity|]; split; [exact I|exact T]|].
    assert (D : measure x = S (measure (work x))) by (apply measure_work; [exact I|rewrite T; discriminate]).
    destruct (IH (work x) (inv_work _ I)) as (m & y & A & B & C & E); [lia|]. exists (S m), y. split; [lia|]. cbn. split; [exact B|]. split; assumption.
Qed.
