(** Proofs about client subscriptions: cancellation, batches, flow control, connection events. *)
From Coq Require Import List Bool Arith Lia.
From Verif Require Import ClientMonModel ClientMonSpec ClientMonProofs.
Import ListNotations.

Section Mon.
  Variable V : Type.
  Variable assign : V -> V -> V.
  Variable g : config.
  Notation sub := (sub V). Notation entry := (entry V). Notation event := (event V). Notation out := (out V).
  Notation step := (step V assign g). Notation run := (run V assign g). Notation new := (new_sub V).
  Notation queue := (queue V). Notation st := (st V). Notation need := (need_notify V). Notation calling := (calling V). Notation cancelled := (cancelled V).
  Notation want_notify := (want_notify V). Notation push := (push V). Notation took := (took V g). Notation pop_loop := (pop_loop V g).

  (** ** The loop of batch pop *)
  (** what pop_loop leaves alone *)
  Lemma took_keeps : forall q s, st (took q s) = st s /\ need (took q s) = need s /\ calling (took q s) = calling s /\ cancelled (took q s) = cancelled s /\ known V (took q s) = known V s /\ queue (took q s) = q.
  Proof. intros. unfold ClientMonModel.took. destruct (pipeline g); repeat split. Qed.
  Lemma loop_ind : forall (P : sub -> Prop), (forall s e q, queue s = e :: q -> P s -> P (took q s)) -> (forall s, queue s = [] -> P s -> P (saw_empty V s)) ->
    forall n first s, P s -> P (fst (pop_loop n first s)).
  Proof.
    intros P A B. induction n as [|n IH]; intros first s H; cbn [ClientMonModel.pop_loop]; [exact H|].
    destruct (queue s) as [|[v|x] q] eqn:Q; [apply B; assumption| |destruct first; [eapply A; eassumption|exact H]].
    specialize (IH false _ (A _ _ _ Q H)). destruct (pop_loop n false (took q s)). exact IH.
  Qed.
  Lemma loop_out : forall n first s x, In x (snd (pop_loop n first s)) -> (exists e, x = Popped V e) \/ x = PopEmpty V \/ (exists b, x = Batch V b).
  Proof.
    induction n as [|n IH]; intros first s x; cbn [ClientMonModel.pop_loop].
    - intros [<-|[]]. eauto.
    - destruct (queue s) as [|[v|y] q] eqn:Q.
      + intros [<-|[<-|[]]]; eauto.
      + specialize (IH false (took q s) x). destruct (pop_loop n false (took q s)). cbn [snd] in *. intros [<-|X]; eauto.
      + destruct first; intros [<-|[]]; eauto.
  Qed.

  (** ** What an update changes *)
  Definition same (s s' : sub) : Prop :=
    st s' = st s /\ unack V s' = unack V s /\ timer V s' = timer V s /\ ack_pending V s' = ack_pending V s /\ cancelled s' = cancelled s /\ known V s' = known V s.
  Lemma same_refl : forall s, same s s. Proof. repeat split. Qed.
  Lemma same_trans : forall a b c, same a b -> same b c -> same a c.
  Proof. unfold same. intros a b c (A1 & A2 & A3 & A4 & A5 & A6) (B1 & B2 & B3 & B4 & B5 & B6). repeat split; congruence. Qed.
  Lemma same_want : forall b s, same s (want_notify b s) /\ queue (want_notify b s) = queue s. Proof. intros [] s; repeat split. Qed.
  Lemma same_push : forall e s, same s (push e s). Proof. repeat split. Qed.
  Lemma update_shape : forall f ok d s, known V s = true -> st s = Idle \/ st s = Running ->
    exists s4, update V assign g f ok d s = (if f || negb ok then finish V g f s4 else (s4, [])) /\ same s s4 /\
      (pipeline g = true -> queue s4 = queue s ++ (if negb ok then [Exc V Remote] else match d with Some v => [Data V v] | None => [] end) ++ (if f then [Exc V Finished] else [])).
  Proof.
    intros f ok d s K S. unfold update. rewrite K. cbn [negb].
    set (s1 := if pipeline g then set_window V (pred (window V s)) s else s).
    set (u := if ok then match d with Some v => Some (Data V v) | None => None end else Some (Exc V Remote)).
    set (s2 := match u, rev (queue s1) with
               | Some (Data _ v), Data _ l :: r => if (queue_size g <=? length (queue s1)) && negb (pipeline g) then squashed V (set_queue V (rev r ++ [Data V (assign l v)]) s1) else push (Data V v) s1
               | Some e, _ => push e s1 | None, _ => s1 end).
    set (s3 := if f then push (Exc V Finished) s2 else s2).
    set (s4 := want_notify (empty V s1 && negb (empty V s3)) s3).
    exists s4. split; [destruct S as [-> | ->]; reflexivity|].
    assert (S1 : same s s1) by (unfold s1; destruct (pipeline g); repeat split).
    assert (Q1 : queue s1 = queue s) by (unfold s1; destruct (pipeline g); repeat split).
    assert (S2 : same s1 s2). { unfold s2. destruct u as [[v|x]|]; [|repeat split|apply same_refl]. destruct (rev (queue s1)) as [|[l|x] r]; [repeat split| |repeat split]. destruct (_ && _); repeat split. }
    assert (Q2 : pipeline g = true -> queue s2 = queue s1 ++ match u with Some e => [e] | None => [] end).
    { intros P. unfold s2. destruct u as [[v|x]|]; [|reflexivity|rewrite app_nil_r; reflexivity]. destruct (rev (queue s1)) as [|[l|x] r]; [reflexivity| |reflexivity]. rewrite P, andb_false_r. reflexivity. }
    assert (S3 : same s2 s3) by (unfold s3; destruct f; repeat split).
    assert (Q3 : queue s3 = queue s2 ++ (if f then [Exc V Finished] else [])) by (unfold s3; destruct f; [reflexivity|rewrite app_nil_r; reflexivity]).
    destruct (same_want (empty V s1 && negb (empty V s3)) s3) as (S4 & Q4). fold s4 in S4, Q4.
    split; [eapply same_trans; [exact S1|]; eapply same_trans; [exact S2|]; eapply same_trans; [exact S3|exact S4]|].
    intros P. rewrite Q4, Q3, (Q2 P), Q1, <- app_assoc. unfold u. destruct ok, d; reflexivity.
  Qed.
  Lemma update_none : forall f ok d s, known V s = false -> update V assign g f ok d s = (s, []).
  Proof. intros f ok d s K. unfold update. rewrite K. reflexivity. Qed.
  Lemma update_other : forall f ok d s, known V s = true -> st s <> Idle -> st s <> Running -> update V assign g f ok d s = (s, [HangUp V]).
  Proof. intros f ok d s K A B. unfold update. rewrite K. cbn [negb]. destruct (st s); try reflexivity; congruence. Qed.
  Lemma update_cases : forall f ok d s,
    update V assign g f ok d s = (s, []) /\ known V s = false \/
    update V assign g f ok d s = (s, [HangUp V]) /\ st s <> Idle /\ st s <> Running \/
    (known V s = true /\ (st s = Idle \/ st s = Running)).
  Proof.
    intros. destruct (known V s) eqn:K; [|left; auto using update_none]. right.
    assert (G : (st s = Idle \/ st s = Running) \/ (st s <> Idle /\ st s <> Running)) by (destruct (st s); auto; right; split; discriminate).
    destruct G as [G|(A & B)]; [auto|left; auto using update_other].
  Qed.

  (** ** Unbuilt *)
  Lemma unbuilt_step : forall s e, (st s = Unbuilt -> need s = true) -> st (fst (step s e)) = Unbuilt -> need (fst (step s e)) = true.
  Proof.
    intros s e H. unfold ClientMonModel.step.
    destruct e as [ok| | |ok th|f ok d| |p| | | |n].
    all: try (destruct (calling s); [exact H|]).
    - unfold build. destruct (st s) eqn:S; cbn [fst]; try (rewrite S; discriminate). destruct ok; cbn; discriminate.
    - unfold create. destruct (st s) eqn:S; cbn [fst]; try (rewrite S; auto; discriminate).
      intros X. exfalso. destruct (pipeline g), (mask_conn g); cbn in X; try discriminate; unfold ClientMonModel.want_notify in X; destruct (empty V _) in X; discriminate.
    - unfold lost. destruct (st s) eqn:S; cbn; try (rewrite S); auto; discriminate.
    - unfold init_reply. destruct (known V s); cbn [negb]; [|exact H]. destruct (st s) eqn:S; cbn [fst]; try (rewrite S; auto; discriminate).
      destruct ok, th; cbn; try (destruct (pipeline g); discriminate); destruct (autostart g); discriminate.
    - destruct (update_cases f ok d s) as [(-> & _)|[(-> & _)|(K & S)]]; [exact H|exact H|].
      destruct (update_shape f ok d s K S) as (s4 & -> & (S4 & _) & _).
      destruct (f || negb ok); cbn; [destruct (pipeline g); discriminate|]. rewrite S4. destruct S as [-> | ->]; discriminate.
    - destruct (timer V s); [exact H|exact H].
    - unfold pause. destruct (st s) eqn:S, p; cbn [fst]; try (rewrite S; auto; discriminate); cbn; discriminate.
    - unfold cancel. destruct (st s) eqn:S; cbn; discriminate.
    - destruct (calling s); exact H.
    - unfold pop. destruct (queue s) eqn:Q; cbn [fst]; [reflexivity|]. destruct (took_keeps l s) as (-> & -> & _). exact H.
    - unfold pop_many. apply (loop_ind (fun s => st s = Unbuilt -> need s = true)); [|reflexivity|exact H].
      intros s' e q _ X. destruct (took_keeps q s') as (-> & -> & _). exact X.
  Qed.

  (** ** Cancelled *)
  Lemma cancelled_step : forall s e, cancelled s = true -> cancelled (fst (step s e)) = true /\ ~ In (Callback V) (snd (step s e)).
  Proof.
    intros s e H. unfold ClientMonModel.step.
    assert (N : forall s', cancelled s' = true -> cancelled (fst (s', @nil out)) = true /\ ~ In (Callback V) (snd (s', @nil out))) by (cbn; auto).
    destruct e as [ok| | |ok th|f ok d| |p| | | |n].
    all: try (destruct (calling s) eqn:CL; [apply N; exact H|]).
    - unfold build. destruct (st s), ok; cbn; auto.
    - unfold create. destruct (st s); cbn [fst snd]; try (apply N; exact H). split; [|intros [X|[]]; discriminate].
      destruct (mask_conn g), (pipeline g); cbn; auto; unfold ClientMonModel.want_notify; destruct (empty V _); auto.
    - unfold lost. destruct (st s); cbn [fst snd]; try (apply N; exact H); (split; [|intros []]);
        (destruct (mask_discon g); cbn; auto; unfold ClientMonModel.want_notify; destruct (empty V _); auto).
    - unfold init_reply. destruct (known V s); cbn [negb]; [|apply N; exact H]. destruct (st s); cbn [fst snd]; try (split; [exact H|intros [X|[]]; discriminate]).
      destruct ok, th; cbn; try (destruct (pipeline g); cbn; split; auto; intros [X|[]]; discriminate); destruct (autostart g); cbn; split; auto; intros [X|[]]; discriminate.
    - destruct (update_cases f ok d s) as [(-> & _)|[(-> & _)|(K & S)]]; [apply N; exact H|split; [exact H|intros [X|[]]; discriminate]|].
      destruct (update_shape f ok d s K S) as (s4 & -> & (_ & _ & _ & _ & S4 & _) & _). rewrite H in S4.
      destruct (f || negb ok); cbn; [|auto]. destruct (pipeline g), f; cbn; split; auto; intros [X|[]]; discriminate.
    - destruct (timer V s); [|apply N; exact H]. unfold tick. cbn [fst snd]. split; [exact H|]. destruct (match st s with Idle | Running => _ | _ => _ end); [intros [X|[]]; discriminate|intros []].
    - unfold pause. destruct (st s), p; cbn; split; auto; intros [X|[]]; discriminate.
    - unfold cancel. destruct (st s); cbn; split; auto; intros [X|[]]; discriminate.
    - destruct (calling s); [|apply N; exact H]. unfold call. cbn. rewrite H. auto.
    - unfold pop. destruct (queue s) eqn:Q; cbn [fst snd]; (split; [|intros [X|[]]; discriminate]); [exact H|]. destruct (took_keeps l s) as (_ & _ & _ & -> & _). exact H.
    - unfold pop_many. split.
      + apply (loop_ind (fun s => cancelled s = true)); [|auto|exact H]. intros s' e q _ X. destruct (took_keeps q s') as (_ & _ & _ & -> & _). exact X.
      + intros X. apply loop_out in X as [(e & X)|[X|(b & X)]]; discriminate.
  Qed.
  Lemma cancelled_run : forall es s, cancelled s = true -> ~ In (Callback V) (snd (run s es)).
  Proof.
    induction es as [|e es IH]; intros s H; cbn [ClientMonModel.run]; [intros []|]. destruct (cancelled_step s e H) as (A & B).
    destruct (step s e) as [s1 o1]. cbn [fst snd] in *. specialize (IH s1 A). destruct (run s1 es) as [s2 o2]. cbn [snd] in *. rewrite in_app_iff. tauto.
  Qed.

  Notation arrived := (arrived V assign g). Notation I := (I V assign).
  Lemma I_new : I new [] [].
  Proof. constructor; cbn; auto; [constructor|intros [X|(X & _)]; discriminate]. Qed.
  Lemma I_reach : forall es, Forall (calm V) es -> I (fst (run new es)) (arrived new es) (snd (run new es)).
  Proof.
    intros es A. enough (X : I (fst (run new es)) (arrived new es) (snd (run new es)) /\ (st (fst (run new es)) = Unbuilt -> need (fst (run new es)) = true)) by exact (proj1 X).
    apply (run_ind_if V assign g (calm V) (fun s a o => I s a o /\ (st s = Unbuilt -> need s = true))); [split; [exact I_new|auto]| |exact A].
    intros s a o e C (H & U). split; [apply I_step; assumption|]. apply unbuilt_step. exact U.
  Qed.
End Mon.
