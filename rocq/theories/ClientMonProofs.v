(** Proofs about client subscriptions: order of events and wake-ups. *)
From Coq Require Import List Bool Arith Lia.
From Verif Require Import ClientMonModel ClientMonSpec.
Import ListNotations.

Section Mon.
  Variable V : Type.
  Variable assign : V -> V -> V.
  Variable g : config.
  Notation sub := (sub V). Notation entry := (entry V). Notation event := (event V). Notation out := (out V).
  Notation step := (step V assign g). Notation run := (run V assign g). Notation new := (new_sub V).
  Notation arrives := (arrives V g). Notation arrived := (arrived V assign g). Notation merged := (merged V assign).
  Notation popped := (popped V). Notation awake := (awake V). Notation cb := (count V (is_callback V)). Notation em := (count V (is_empty V)).
  Notation queue := (queue V). Notation st := (st V). Notation need := (need_notify V). Notation calling := (calling V). Notation cancelled := (cancelled V).
  Notation empty := (empty V). Notation want_notify := (want_notify V). Notation push := (push V). Notation set_queue := (set_queue V).

  Lemma run_app : forall es s es', run s (es ++ es') = let '(s1, o1) := run s es in let '(s2, o2) := run s1 es' in (s2, o1 ++ o2).
  Proof.
    induction es as [|e es IH]; intros s es'; cbn [ClientMonModel.run app].
    - destruct (run s es'); reflexivity.
    - destruct (step s e) as [s1 o1]. rewrite IH. destruct (run s1 es) as [s2 o2]. destruct (run s2 es') as [s3 o3]. rewrite app_assoc. reflexivity.
  Qed.
  Lemma arrived_app : forall es s es', arrived s (es ++ es') = arrived s es ++ arrived (fst (run s es)) es'.
  Proof.
    induction es as [|e es IH]; intros s es'; [reflexivity|]. cbn [ClientMonSpec.arrived app ClientMonModel.run]. rewrite IH, <- app_assoc. do 2 f_equal.
    destruct (step s e) as [s1 o1]. cbn. destruct (run s1 es). reflexivity.
  Qed.
  Lemma run_ind_end : forall (P : sub -> list entry -> list out -> Prop) s0,
    P s0 [] [] -> (forall s a o e, P s a o -> P (fst (step s e)) (a ++ arrives s e) (o ++ snd (step s e))) ->
    forall es, P (fst (run s0 es)) (arrived s0 es) (snd (run s0 es)).
  Proof.
    intros P s0 B S es. induction es as [|e es IH] using rev_ind; [exact B|]. rewrite run_app, arrived_app. destruct (run s0 es) as [s o] eqn:R. cbn [fst snd] in *.
    cbn [ClientMonModel.run ClientMonSpec.arrived]. specialize (S s _ o e IH). destruct (step s e) as [s1 o1]. cbn [fst snd] in *. rewrite !app_nil_r. exact S.
  Qed.
  (** the same with a condition on the events *)
  Lemma run_ind_if : forall (Q : event -> Prop) (P : sub -> list entry -> list out -> Prop) s0,
    P s0 [] [] -> (forall s a o e, Q e -> P s a o -> P (fst (step s e)) (a ++ arrives s e) (o ++ snd (step s e))) ->
    forall es, Forall Q es -> P (fst (run s0 es)) (arrived s0 es) (snd (run s0 es)).
  Proof.
    intros Q P s0 B S es. induction es as [|e es IH] using rev_ind; intros A; [exact B|]. apply Forall_app in A as (A & A1). inversion A1; subst.
    rewrite run_app, arrived_app. specialize (IH A). destruct (run s0 es) as [s o] eqn:R. cbn [fst snd] in *.
    cbn [ClientMonModel.run ClientMonSpec.arrived]. specialize (S s _ o e H1 IH). destruct (step s e) as [s1 o1]. cbn [fst snd] in *. rewrite !app_nil_r. exact S.
  Qed.

  Lemma popped_app : forall a b, popped (a ++ b) = popped a ++ popped b. Proof. intros. unfold popped. apply flat_map_app. Qed.
  Lemma count_app : forall f a b, count V f (a ++ b) = count V f a + count V f b.
  Proof. intros. unfold count. rewrite filter_app, app_length. reflexivity. Qed.
  Lemma awake_more : forall o o', awake o -> ~ In (PopEmpty V) o' -> awake (o ++ o').
  Proof. intros o o' (l1 & l2 & -> & N) N'. exists l1, (l2 ++ o'). split; [rewrite <- app_assoc; reflexivity|]. rewrite in_app_iff. tauto. Qed.

  Definition b2n (b : bool) : nat := if b then 1 else 0.
  Definition dead (s : sub) : bool := match st s with Dead => true | _ => false end.
  Record I (s : sub) (a : list entry) (o : list out) : Prop := {
    I_merge : merged a (popped o ++ queue s);
    I_need : need s = true -> queue s = [] \/ dead s = true;
    I_wake : need s = false \/ (dead s = true /\ queue s <> []) -> cancelled s = true \/ calling s = true \/ awake o;
    I_cb : cb o + b2n (calling s) + b2n (need s && negb (dead s)) <= 1 + em o
  }.
  Lemma I_same : forall s s' a o, queue s' = queue s -> need s' = need s -> calling s' = calling s -> (cancelled s = true -> cancelled s' = true) -> dead s' = dead s ->
    I s a o -> I s' a o.
  Proof.
    intros s s' a o E1 E2 E3 E4 E5 [A B C D]. constructor; rewrite ?E1, ?E2, ?E3, ?E5; auto. intros X. destruct (C X) as [Y|Y]; auto.
  Qed.
  Lemma I_quiet : forall s a o o', popped o' = [] -> ~ In (PopEmpty V) o' -> cb o' = 0 -> em o' = 0 -> I s a o -> I s a (o ++ o').
  Proof.
    intros s a o o' E1 E2 E3 E4 [A B C D]. constructor; auto.
    - rewrite popped_app, E1, app_nil_r. exact A.
    - intros X. destruct (C X) as [Y|[Y|Y]]; auto using awake_more.
    - rewrite !count_app, E3, E4. lia.
  Qed.
  Lemma I_took : forall s a o e q, queue s = e :: q -> I s a o -> I (took V g q s) a (o ++ [Popped V e]).
  Proof.
    intros s a o e q E [A B C D].
    assert (X : queue (took V g q s) = q /\ need (took V g q s) = need s /\ calling (took V g q s) = calling s /\ cancelled (took V g q s) = cancelled s /\ dead (took V g q s) = dead s)
      by (unfold took; destruct (pipeline g); repeat split).
    destruct X as (X1 & X2 & X3 & X4 & X5). constructor.
    - rewrite popped_app, X1. rewrite E in A. cbn. rewrite <- app_assoc. exact A.
    - rewrite X2, X5, X1. intros N. destruct (B N) as [N'|N']; [congruence|auto].
    - rewrite X1, X2, X3, X4, X5. intros N. assert (W : cancelled s = true \/ calling s = true \/ awake o). { apply C. destruct N as [N|(N & M)]; [auto|]. right. split; [exact N|]. congruence. }
      destruct W as [W|[W|W]]; auto. right. right. apply awake_more; [exact W|]. intros [Y|[]]. discriminate.
    - rewrite X2, X3, X5, !count_app. cbn. lia.
  Qed.
  Lemma I_saw : forall s a o, queue s = [] -> I s a o -> I (saw_empty V s) a (o ++ [PopEmpty V]).
  Proof.
    intros s a o E [A B C D]. constructor.
    - rewrite popped_app. cbn. rewrite app_nil_r. exact A.
    - cbn. auto.
    - cbn. intros [X|(_ & X)]; [discriminate|congruence].
    - rewrite !count_app. cbn [ClientMonModel.calling ClientMonModel.need_notify saw_empty]. change (dead (saw_empty V s)) with (dead s). cbn [count is_callback is_empty filter length].
      unfold count in *. cbn. destruct (need s), (dead s); cbn in *; lia.
  Qed.
  Lemma I_loop : forall n first s a o, I s a o -> I (fst (pop_loop V g n first s)) a (o ++ snd (pop_loop V g n first s)).
  Proof.
    induction n as [|n IH]; intros first s a o H; cbn [pop_loop].
    - apply I_quiet; auto. intros [X|[]]; discriminate.
    - destruct (queue s) as [|[v|x] q] eqn:Q.
      + cbn [fst snd]. change [PopEmpty V; Batch V (negb (need (saw_empty V s)))] with ([PopEmpty V] ++ [Batch V (negb (need (saw_empty V s)))]). rewrite app_assoc.
        apply I_quiet; auto using I_saw. intros [X|[]]; discriminate.
      + specialize (IH false _ _ _ (I_took s a o _ q Q H)). destruct (pop_loop V g n false (took V g q s)) as [s' o']. cbn [fst snd] in *. rewrite <- app_assoc in IH. exact IH.
      + destruct first; cbn [fst snd]; [apply I_took; assumption|]. apply I_quiet; auto. intros [X|[]]; discriminate.
  Qed.
  Lemma I_call : forall s a o, calling s = true -> I s a o -> I (fst (call V s)) a (o ++ snd (call V s)).
  Proof.
    intros s a o E [A B C D]. unfold call. cbn [fst snd]. constructor.
    - rewrite popped_app. replace (popped (if cancelled s then [] else [Callback V])) with (@nil entry) by (destruct (cancelled s); reflexivity). rewrite app_nil_r. exact A.
    - exact B.
    - intros X. cbn. destruct (cancelled s) eqn:K; [auto|]. right. right. exists o, []. auto.
    - rewrite !count_app. rewrite E in D. cbn [ClientMonModel.calling ClientMonModel.need_notify]. change (dead _) with (dead s). destruct (cancelled s); cbn in *; unfold count in *; lia.
  Qed.
  (** a new queue and the callback for it *)
  Definition isnil (q : list entry) : bool := match q with [] => true | _ => false end.
  Lemma I_queue : forall s a o q' a', calling s = false -> dead s = false -> I s a o -> merged a' (popped o ++ q') ->
    (queue s <> [] -> q' <> []) -> I (want_notify (empty s && negb (isnil q')) (set_queue q' s)) a' o.
  Proof.
    intros s a o q' a' NC ND [A B C D] M K. unfold empty in *.
    destruct (queue s) as [|e q] eqn:Q; cbn [andb].
    - destruct q' as [|e' q'']; cbn [isnil negb want_notify].
      + constructor; auto.
      + constructor; cbn [ClientMonModel.queue ClientMonModel.need_notify ClientMonModel.calling ClientMonModel.cancelled set_queue]; auto; try discriminate.
        * change (dead _) with (dead s). rewrite ND. intros _. destruct (need s) eqn:E; [auto|]. destruct (C (or_introl eq_refl)) as [Y|[Y|Y]]; auto; congruence.
        * change (dead _) with (dead s). rewrite NC, ND in D. destruct (need s); cbn in *; lia.
    - cbn [want_notify]. constructor; auto.
      + cbn [ClientMonModel.need_notify set_queue]. intros X. destruct (B X) as [Y|Y]; congruence.
      + change (dead _) with (dead s). rewrite ND. intros [X|(X & _)]; [|discriminate]. destruct (C (or_introl X)) as [Y|[Y|Y]]; auto.
  Qed.
  Lemma I_push1 : forall s a o e, calling s = false -> dead s = false -> I s a o -> I (push e (want_notify (empty s) s)) (a ++ [e]) o.
  Proof.
    intros s a o e NC ND H. pose proof (I_queue s a o (queue s ++ [e]) (a ++ [e]) NC ND H) as K.
    assert (X : push e (want_notify (empty s) s) = want_notify (empty s && negb (isnil (queue s ++ [e]))) (set_queue (queue s ++ [e]) s)).
    { unfold empty, push, ClientMonModel.want_notify. destruct (queue s) eqn:Q; cbn; rewrite ?Q; reflexivity. }
    rewrite X. apply K; [rewrite app_assoc; apply merged_event; exact (I_merge _ _ _ H)|]. intros _ Y. destruct (queue s); discriminate.
  Qed.
  Lemma dead_want : forall b s, dead (want_notify b s) = dead s. Proof. intros [] s; reflexivity. Qed.
  Lemma I_finish : forall f s a o, dead s = false -> I s a o -> I (fst (finish V g f s)) a (o ++ snd (finish V g f s)).
  Proof.
    intros f s a o ND H. unfold finish. cbn [fst snd].
    assert (X : I (set_known V false (if pipeline g then set_timer V false (set_st V Done s) else set_st V Done s)) a o).
    { apply (I_same s); auto; try (destruct (pipeline g); reflexivity || (intros X; exact X)).
      destruct (pipeline g); cbn; auto. }
    destruct f; [rewrite app_nil_r; exact X|]. apply I_quiet; auto. intros [Y|[]]; discriminate.
  Qed.

  Definition calm (e : event) : Prop := match e with InitReply _ true true => False | _ => True end.
  Lemma nin_nil : ~ In (PopEmpty V) []. Proof. intros []. Qed.
  Lemma I_nothing : forall s a o, I s a o -> I s (a ++ []) (o ++ []).
  Proof. intros. rewrite !app_nil_r. assumption. Qed.
  Ltac quiet := apply I_quiet; [reflexivity|let Y := fresh in intros Y; repeat destruct Y as [Y|Y]; try discriminate; contradiction|reflexivity|reflexivity|].
  Lemma I_update : forall f ok d s a o, calling s = false -> I s a o ->
    I (fst (update V assign g f ok d s)) (a ++ arrives s (Update V f ok d)) (o ++ snd (update V assign g f ok d s)).
  Proof.
    intros f ok d s a o NC H. unfold ClientMonModel.update, ClientMonSpec.arrives. rewrite NC.
    destruct (known V s) eqn:KN; cbn [negb].
    2:{ destruct (st s); apply I_nothing; exact H. }
    assert (G : (st s = Idle \/ st s = Running) \/ (st s <> Idle /\ st s <> Running)) by (destruct (st s); auto; right; split; discriminate).
    destruct G as [G|G].
    2:{ destruct (st s); try (rewrite app_nil_r; cbn [fst snd]; quiet; exact H); destruct G; congruence. }
    assert (ND : dead s = false) by (unfold dead; destruct G as [-> | ->]; reflexivity).
    set (u := if ok then match d with Some v => Some (Data V v) | None => None end else Some (Exc V Remote)).
    set (s1 := if pipeline g then set_window V (pred (window V s)) s else s).
    assert (S1 : queue s1 = queue s /\ calling s1 = calling s /\ dead s1 = dead s) by (unfold s1; destruct (pipeline g); auto). destruct S1 as (S1q & S1c & S1d).
    assert (H1 : I s1 a o) by (apply (I_same s); auto; unfold s1; destruct (pipeline g); auto).
    set (s2 := match u, rev (queue s1) with
               | Some (Data _ v), Data _ l :: r => if (queue_size g <=? length (queue s1)) && negb (pipeline g) then squashed V (set_queue (rev r ++ [Data V (assign l v)]) s1) else push (Data V v) s1
               | Some e, _ => push e s1 | None, _ => s1 end).
    set (au := match u with Some e => [e] | None => [] end).
    assert (H2 : exists q2, (exists n, s2 = {| ClientMonModel.st := st s1; ClientMonModel.queue := q2; window := window V s1; unack := unack V s1; need_notify := need s1; ack_pending := ack_pending V s1; timer := timer V s1;
       ClientMonModel.calling := calling s1; ClientMonModel.cancelled := cancelled s1; known := known V s1; n_squash := n |}) /\ merged (a ++ au) (popped o ++ q2) /\ (queue s1 <> [] -> q2 <> []) /\ (u <> None -> q2 <> [])).
    { pose proof (I_merge _ _ _ H1) as M. unfold s2, au. destruct u as [e|].
      2:{ exists (queue s1). split; [exists (n_squash V s1); destruct s1; reflexivity|]. rewrite app_nil_r. split; [exact M|]. split; [auto|congruence]. }
      assert (P : exists q2, (exists n, push e s1 = {| ClientMonModel.st := st s1; ClientMonModel.queue := q2; window := window V s1; unack := unack V s1; need_notify := need s1; ack_pending := ack_pending V s1; timer := timer V s1;
       ClientMonModel.calling := calling s1; ClientMonModel.cancelled := cancelled s1; known := known V s1; n_squash := n |}) /\ merged (a ++ [e]) (popped o ++ q2) /\ (queue s1 <> [] -> q2 <> []) /\ (Some e <> None -> q2 <> [])).
      { exists (queue s1 ++ [e]). split; [exists (n_squash V s1); reflexivity|]. split; [rewrite app_assoc; constructor; exact M|]. split; intros _ X; destruct (queue s1); discriminate. }
      destruct e as [v|x]; [|exact P]. destruct (rev (queue s1)) as [|[l|x] r] eqn:R; [exact P| |exact P].
      destruct (_ && _); [|exact P]. assert (Q : queue s1 = rev r ++ [Data V l]) by (rewrite <- (rev_involutive (queue s1)), R; reflexivity).
      exists (rev r ++ [Data V (assign l v)]). split; [exists (S (n_squash V s1)); reflexivity|]. split.
      - rewrite app_assoc. apply merged_update. rewrite <- app_assoc, <- Q. exact M.
      - split; intros _ X; destruct (rev r); discriminate. }
    destruct H2 as (q2 & (n2 & E2) & M2 & NE2 & NU2).
    set (s3 := if f then push (Exc V Finished) s2 else s2).
    set (q3 := if f then q2 ++ [Exc V Finished] else q2).
    set (af := if f then [Exc V Finished] else []).
    set (s0 := {| ClientMonModel.st := st s1; ClientMonModel.queue := queue s1; window := window V s1; unack := unack V s1; need_notify := need s1; ack_pending := ack_pending V s1; timer := timer V s1;
       ClientMonModel.calling := calling s1; ClientMonModel.cancelled := cancelled s1; known := known V s1; n_squash := n2 |}).
    assert (H0 : I s0 a o) by (apply (I_same s1); auto).
    assert (H4 : I (want_notify (empty s1 && negb (empty s3)) s3) (a ++ au ++ af) o).
    { assert (K := I_queue s0 a o q3 (a ++ au ++ af) ltac:(cbn; congruence) ltac:(change (dead s0) with (dead s1); congruence) H0).
      assert (X : want_notify (empty s1 && negb (empty s3)) s3 = want_notify (empty s0 && negb (isnil q3)) (set_queue q3 s0)).
      { unfold s3, q3, s0. destruct f; rewrite E2; cbn; reflexivity. }
      rewrite X. apply K.
      - unfold q3, af. destruct f; [|rewrite app_nil_r; exact M2]. rewrite !app_assoc. constructor. exact M2.
      - change (queue s0) with (queue s1). unfold q3. intros Y Z. destruct f; [destruct q2; discriminate|]. exact (NE2 Y Z). }
    assert (AR : (if negb ok then [Exc V Remote] else match d with Some v => [Data V v] | None => [] end) ++ af = au ++ af).
    { unfold au, u. destruct ok; cbn; [destruct d; reflexivity|reflexivity]. }
    assert (D4 : dead (want_notify (empty s1 && negb (empty s3)) s3) = false).
    { transitivity (dead s1); [|congruence]. rewrite dead_want. unfold s3. destruct f; rewrite E2; reflexivity. }
    assert (GOAL : I (fst (if f || negb ok then finish V g f (want_notify (empty s1 && negb (empty s3)) s3) else (want_notify (empty s1 && negb (empty s3)) s3, [])))
                     (a ++ (if negb ok then [Exc V Remote] else match d with Some v => [Data V v] | None => [] end) ++ af)
                     (o ++ snd (if f || negb ok then finish V g f (want_notify (empty s1 && negb (empty s3)) s3) else (want_notify (empty s1 && negb (empty s3)) s3, [])))).
    { rewrite AR. destruct (f || negb ok); [apply I_finish; assumption|]. cbn [fst snd]. rewrite app_nil_r. exact H4. }
    destruct G as [-> | ->]; exact GOAL.
  Qed.
  Lemma want_true : forall s a o, calling s = false -> dead s = false -> I s a o -> forall e,
    I (want_notify true (push e s)) (a ++ [e]) o.
  Proof.
    intros s a o NC ND H e. pose proof (I_push1 s a o e NC ND H) as K. destruct (queue s) as [|x q] eqn:Q.
    - assert (X : want_notify true (push e s) = push e (want_notify (empty s) s)) by (unfold empty; rewrite Q; reflexivity). rewrite X. exact K.
    - assert (N : need s = false). { destruct (need s) eqn:N; [|reflexivity]. destruct (I_need _ _ _ H N); congruence. }
      apply (I_same (push e (want_notify (empty s) s))); auto; unfold empty; rewrite Q; cbn; first [congruence | reflexivity | auto].
  Qed.
  Lemma I_step : forall s a o e, calm e -> (st s = Unbuilt -> need s = true) -> I s a o -> I (fst (step s e)) (a ++ arrives s e) (o ++ snd (step s e)).
  Proof.
    intros s a o e CA UB H. unfold ClientMonModel.step. destruct (calling s) eqn:NC.
    - assert (AR : arrives s e = []) by (unfold ClientMonSpec.arrives; rewrite NC; reflexivity). rewrite AR, app_nil_r.
      destruct e; try (rewrite app_nil_r; exact H).
      + apply I_call; assumption.
      + unfold pop. destruct (queue s) as [|x q] eqn:Q; cbn [fst snd]; [apply I_saw|apply I_took]; assumption.
      + apply I_loop. exact H.
    - destruct e as [ok| | |ok th|f ok d| |p| | | |n].
      + unfold build, ClientMonSpec.arrives. rewrite NC. destruct (st s) eqn:S; try (destruct ok; apply I_nothing; exact H).
        destruct ok; cbn [fst snd].
        * apply I_nothing. apply (I_same s); auto. unfold dead. rewrite S. reflexivity.
        * rewrite app_nil_r. destruct H as [A B C D]. constructor.
          -- cbn. rewrite app_assoc. constructor. exact A.
          -- auto.
          -- auto.
          -- cbn [ClientMonModel.calling ClientMonModel.need_notify b2n]. rewrite NC in D. change (dead _) with true. assert (DS : dead s = false) by (unfold dead; rewrite S; reflexivity). rewrite DS in D.
             cbn in *. rewrite (UB eq_refl) in *. cbn in *. lia.
      + unfold create, ClientMonSpec.arrives. rewrite NC. destruct (st s) eqn:S; try (apply I_nothing; exact H). cbn [fst snd].
        set (s1 := set_known V true (set_st V Creating s)).
        assert (H1 : I s1 a o) by (apply (I_same s); auto; unfold dead; rewrite S; reflexivity). quiet.
        assert (H2 : I (if mask_conn g then s1 else push (Exc V Connected) (want_notify (empty s1) s1)) (a ++ (if mask_conn g then [] else [Exc V Connected])) o).
        { destruct (mask_conn g); [rewrite app_nil_r; exact H1|]. apply I_push1; auto. }
        destruct (pipeline g); [|exact H2]. eapply I_same; [| | | | |exact H2]; auto.
      + unfold lost, ClientMonSpec.arrives. rewrite NC. set (s0 := set_known V false s).
        assert (H1 : I s0 a o) by (apply (I_same s); auto).
        assert (H2 : dead s = false -> I (set_st V Connecting (if mask_discon g then s0 else push (Exc V Disconnect) (want_notify (empty s0) s0))) (a ++ (if mask_discon g then [] else [Exc V Disconnect])) o).
        { intros ND. destruct (mask_discon g).
          - rewrite app_nil_r. apply (I_same s0); auto.
          - eapply I_same; [| | | | |apply (I_push1 s0); auto]; auto.
            cbn. unfold ClientMonModel.want_notify. destruct (empty s0); symmetry; exact ND. }
        destruct (st s) eqn:S; cbn [fst snd]; try (rewrite !app_nil_r; exact H1); rewrite (app_nil_r o); apply H2; unfold dead; rewrite S; reflexivity.
      + unfold init_reply, ClientMonSpec.arrives. rewrite NC. destruct (known V s); cbn [negb].
        2:{ destruct (st s); apply I_nothing; exact H. }
        destruct (st s) eqn:S; try (rewrite app_nil_r; cbn [fst snd]; quiet; exact H).
        assert (ND : dead s = false) by (unfold dead; rewrite S; reflexivity).
        destruct ok; cbn [negb].
        * destruct th; [contradiction|]. rewrite app_nil_r. destruct (autostart g).
          -- cbn. quiet. apply (I_same s); auto. 
          -- cbn. rewrite app_nil_r. apply (I_same s); auto.
        * apply I_finish; [reflexivity|]. apply want_true; auto. apply (I_same s); auto.
      + apply I_update; assumption.
      + unfold ClientMonSpec.arrives. rewrite NC. rewrite app_nil_r. destruct (timer V s) eqn:TM.
        * unfold tick. cbn [fst snd]. assert (H1 : forall w u, I {| ClientMonModel.st := st s; ClientMonModel.queue := queue s; window := w; unack := u;
              need_notify := need s; ack_pending := false; timer := false; ClientMonModel.calling := calling s; ClientMonModel.cancelled := cancelled s; known := known V s; n_squash := n_squash V s |} a o)
            by (intros; apply (I_same s); auto).
          destruct (match st s with Idle | Running => pipeline g && negb (unack V s =? 0) | _ => false end); [quiet|rewrite app_nil_r]; apply H1.
        * rewrite app_nil_r. exact H.
      + unfold ClientMonSpec.arrives. rewrite NC, app_nil_r. unfold pause. destruct (st s) eqn:S, p; cbn [fst snd]; try (rewrite app_nil_r; exact H); quiet; apply (I_same s); auto; unfold dead; rewrite S; reflexivity.
      + unfold ClientMonSpec.arrives. rewrite NC, app_nil_r. unfold cancel. 
        assert (X : dead s = match st s with Dead => true | _ => false end) by reflexivity.
        destruct (st s) eqn:S; cbn [fst snd]; [rewrite app_nil_r|rewrite app_nil_r|rewrite app_nil_r|rewrite app_nil_r|quiet|quiet|rewrite app_nil_r];
          apply (I_same s); auto; destruct (pipeline g); auto.
      + unfold ClientMonSpec.arrives. rewrite NC. apply I_nothing. exact H.
      + unfold ClientMonSpec.arrives. rewrite NC, app_nil_r. unfold pop. destruct (queue s) as [|x q] eqn:Q; cbn [fst snd]; [apply I_saw|apply I_took]; assumption.
      + unfold ClientMonSpec.arrives. rewrite NC, app_nil_r. apply I_loop. exact H.
  Qed.
End Mon.
