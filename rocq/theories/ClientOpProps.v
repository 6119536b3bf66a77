(** Properties of client operations (C37, C38, C65, C66, C67). *)
From Coq Require Import List Bool Arith Lia.
From Verif Require Import ClientOpModel ClientOpSpec ClientOpProofs.
Import ListNotations.

Section Props.
  Context {V : Type}.
  Variable assign : V -> V -> V.
  Variable g : config.
  (** the builder of a PUT and the argument of an RPC, as given to exec() *)
  Variable b : option V -> option V.
  Variable a : option V.
  Definition after (es : list (event V)) : gpr V := fst (run V assign g (new_gpr V b a) es).
  Definition told (es : list (event V)) : list (out V) := snd (run V assign g (new_gpr V b a) es).

  (** ** C37 *)
  (** With autoExec, the default: the result callback is invoked at most once, *)
  Theorem C37_once es : auto g = true -> count (calls V 0) (told es) <= 1.
  Proof. intros AU. exact (J_once _ _ _ _ (J_reach V assign g AU b a es)). Qed.
  (** the operation is over then, *)
  Theorem C37_final es : auto g = true -> count (calls V 0) (told es) = 1 -> st V (after es) = Done \/ st V (after es) = Dead.
  Proof.
    intros AU C. destruct (J_reach V assign g AU b a es) as [A _ _ _ _]. fold (after es) (told es) in A. destruct (st V (after es)); auto; cbn in A; specialize (A eq_refl); lia.
  Qed.
  (** and it does not end without it, unless the user gave it up. *)
  Theorem C37_told es : auto g = true -> st V (after es) = Done \/ st V (after es) = Dead -> count (gives_up V) es = 0 -> count (calls V 0) (told es) = 1.
  Proof.
    intros AU F G. destruct (J_reach V assign g AU b a es) as [_ B C _ _]. fold (after es) (told es) in B, C.
    assert (X : final (st V (after es)) = true) by (destruct F as [-> | ->]; reflexivity). specialize (C X). destruct (count (calls V 0) (told es)) as [|[|n]]; lia.
  Qed.
  Lemma told_app es es' : exists o, told (es ++ es') = told es ++ o /\ o = snd (run V assign g (after es) es').
  Proof. unfold told, after. rewrite run_app. destruct (run V assign g (new_gpr V b a) es) as [s o]. cbn. exists (snd (run V assign g s es')). destruct (run V assign g s es'). auto. Qed.
  (** After cancel(), or when the handle was dropped, no callback is invoked (but that of a later reExec). *)
  Theorem C37_cancelled es es' : count (is_reexec V) es' = 0 -> exists o, told (es ++ Cancel V :: es') = told es ++ o /\ count (is_call V) o = 0.
  Proof.
    intros R. destruct (told_app es (Cancel V :: es')) as (o & -> & ->). eexists. split; [reflexivity|].
    cbn [run step]. unfold cancel. destruct (cancel_ V (after es)) as [s1 o1] eqn:C. pose proof (who_none_run V assign g es' (set_who V None s1) eq_refl R) as X.
    destruct (run V assign g (set_who V None s1) es') as [s2 o2]. cbn [snd] in *. rewrite count_app, X.
    assert (Y : count (is_call V) o1 = 0) by (unfold cancel_ in C; destruct (st V (after es)), (attached V (after es)); injection C as <- <-; reflexivity). lia.
  Qed.
  Theorem C37_dropped es es' : count (is_reexec V) es' = 0 -> st V (after es) <> Unbuilt -> st V (after es) <> Dead -> orderly V false (es ++ [Drop V]) ->
    exists o, told (es ++ Drop V :: es') = told es ++ o /\ count (is_call V) o = 0.
  Proof.
    intros R N1 N2 O. destruct (told_app es (Drop V :: es')) as (o & -> & ->). eexists. split; [reflexivity|].
    pose proof (null_run V assign g (es ++ [Drop V]) (new_gpr V b a) false ltac:(discriminate) O) as NN. rewrite run_app in NN. unfold after in *.
    destruct (run V assign g (new_gpr V b a) es) as [s o0]. cbn [fst snd] in *. cbn [run step] in *. unfold drop, cancel_ in *.
    destruct (st V s) eqn:S; try congruence; destruct (attached V s); try (exfalso; apply NN; apply in_or_app; right; left; reflexivity);
      match goal with |- context [run V assign g ?x es'] => pose proof (done_run V assign g es' x eq_refl R) as X; destruct (run V assign g x es') as [s2 o2] end; exact X.
  Qed.
  (** The reply to the execution is handed to the callback. *)
  Theorem C37_reply es ok data : auto g = true -> known V (after es) = true -> st V (after es) = Exec -> count (gives_up V) es = 0 ->
    told (es ++ [Reply V false ok data]) = told es ++ [SentDestroy V; Called V 0 (if ok then Ok V data else Remote V)].
  Proof.
    intros AU K S G. destruct (J_reach V assign g AU b a es) as [_ _ _ D _]. fold (after es) in D. specialize (D G).
    destruct (told_app es [Reply V false ok data]) as (o & -> & ->). f_equal. cbn [run step]. unfold reply, ended, notify. rewrite K, S, AU. cbn [negb]. destruct ok; cbn; rewrite D; reflexivity.
  Qed.
  (** INFO operations *)
  Theorem C37_info_once es : count i_calls (snd (irun new_info es)) <= 1 /\
    (i_st (fst (irun new_info es)) = IDone -> count i_gives_up es = 0 -> count i_calls (snd (irun new_info es)) = 1).
  Proof.
    destruct (IJ_reach es) as [A B C]. split; [exact B|]. intros S G. rewrite S in C. specialize (C eq_refl). destruct (count i_calls _) as [|[|n]]; lia.
  Qed.
  Theorem C37_info_cancelled es es' : exists o, snd (irun new_info (es ++ ICancel :: es')) = snd (irun new_info es) ++ o /\ count i_calls o = 0.
  Proof.
    rewrite irun_app. destruct (irun new_info es) as [s o]. cbn [fst snd]. destruct (irun s (ICancel :: es')) as [s2 o2] eqn:R. exists o2. split; [reflexivity|].
    cbn [irun istep] in R. destruct (i_cancel_ s) as [s1 o1] eqn:C. cbv zeta beta iota in R.
    match type of R with context [irun ?x es'] => pose proof (i_silent es' x (or_introl eq_refl)) as X; destruct (irun x es') as [s3 o3] end. injection R as <- <-. cbn [snd] in X. rewrite count_app, X.
    unfold i_cancel_ in C. destruct (i_st s), (i_attached s); injection C as <- <-; reflexivity.
  Qed.

  (** ** C38 *)
  (** A PUT or RPC is sent for execution at most once, plus once for each loss of the connection while its reply is awaited. *)
  Theorem C38_partial es : auto g = true -> count (executes V) (told es) <= 1 + lost_executing V assign g (new_gpr V b a) es.
  Proof. intros AU. pose proof (exec_auto_run V assign g es (new_gpr V b a) AU) as X. unfold told. cbn [new_gpr st may] in X. lia. Qed.
  (** With autoExec(false), at most once for each reExecPut(). *)
  Theorem C38_reexec es : auto g = false -> op_kind g = Put -> count (executes V) (told es) <= count (is_put V) es.
  Proof. intros AU K. apply exec_put_run; assumption. Qed.

  (** While the answer to a request is awaited, reExecGet() and reExecPut() send no other. *)
  Theorem C38_one_outstanding careful s owed p v n x : honest V assign g careful b a s owed -> st V s = GetOPut \/ st V s = Exec ->
    In x (snd (step V assign g s (ReExec V p v n))) -> executes V x = false /\ x <> SentGet V.
  Proof.
    intros H S. destruct (hon_awaits V assign g careful b a s owed H) as [A|A]; [destruct S as [S|S]; rewrite S in A; discriminate|].
    apply (outstanding V assign g s owed); auto; destruct S as [S|S]; rewrite S in *; cbn in A; subst; discriminate.
  Qed.
  (** reExecPut() on a connected operation: sent at once; its callback is given the reply, *)
  Theorem C37_reexec_put_partial es v n d : auto g = false -> op_kind g = Put -> known V (after es) = true -> st V (after es) = Idle ->
    told (es ++ [ReExec V true v n; Reply V false true d]) = told es ++ [SentExec V (Some v); Called V (S n) (Ok V d)].
  Proof.
    intros AU K KN S. destruct (told_app es [ReExec V true v n; Reply V false true d]) as (o & -> & ->). f_equal.
    cbn [run step]. unfold re_exec_impl, re_exec, build_put, send_exec. rewrite AU, S, K. cbn [set_who set_build build arg]. cbn. unfold reply. cbn. rewrite KN, AU. reflexivity.
  Qed.
  (** or told of the loss of the connection, and it is not sent again. *)
  Theorem C37_reexec_put_lost es v n es' : auto g = false -> op_kind g = Put -> known V (after es) = true -> st V (after es) = Idle -> count (is_put V) es' = 0 ->
    exists o, told (es ++ [ReExec V true v n; Lost V] ++ es') = told es ++ [SentExec V (Some v); Called V (S n) (Disconnect V)] ++ o /\ count (executes V) o = 0.
  Proof.
    intros AU K KN S C. destruct (told_app es ([ReExec V true v n; Lost V] ++ es')) as (o & -> & ->).
    cbn [app run step]. unfold re_exec_impl, re_exec, build_put, send_exec. rewrite AU, S, K. cbn [set_who set_build build arg]. cbn. unfold lost. cbn. rewrite K, AU. cbn.
    match goal with |- context [run V assign g ?x es'] => pose proof (exec_put_run V assign g es' x AU K) as X; destruct (run V assign g x es') as [s2 o2] end.
    exists o2. split; [reflexivity|]. cbn [snd] in X. lia.
  Qed.

  (** ** C65 *)
  (** With a server which keeps to the protocol, no operation with autoExec makes the client end the connection, whenever it is cancelled; *)
  Theorem C65_gpr s owed e : auto g = true -> honest V assign g (fun _ _ => True) b a s owed -> allowed V owed e -> ~ In (HangUp V) (snd (step V assign g s e)).
  Proof. intros AU H A X. destruct (hon_hang V assign g s owed e (hon_step V assign g _ b a s owed H) A X). congruence. Qed.
  (** without, only the refusal of a request does. *)
  Theorem C65_reexec_partial s owed e : honest V assign g (fun _ _ => True) b a s owed -> allowed V owed e -> In (HangUp V) (snd (step V assign g s e)) ->
    exists get data, e = Reply V get false data.
  Proof. intros H A X. exact (proj2 (hon_hang V assign g s owed e (hon_step V assign g _ b a s owed H) A X)). Qed.

  (** An answer to something else than what was asked never reaches a callback: it is ignored or ends the connection. *)
  Theorem C65_unsolicited careful s owed e : honest V assign g careful b a s owed ->
    match e with InitReply _ _ _ _ | Reply _ _ _ _ => ~ allowed V owed e | _ => False end ->
    fst (step V assign g s e) = s /\ (snd (step V assign g s e) = [] \/ snd (step V assign g s e) = [HangUp V]).
  Proof. intros H A. apply (unsolicited V assign g s owed e); [eapply hon_awaits; eauto|]. destruct e; auto. Qed.

  (** ** C66 *)
  (** No null pointer is used, if no callback invoked while the channel is being disconnected gives up the operation. *)
  Theorem C66_partial es : orderly V false es -> ~ In (NullDeref V) (told es).
  Proof. intros O. apply (null_run V assign g es (new_gpr V b a) false); [discriminate|exact O]. Qed.

  (** ** C67 *)
  (** What is sent to be put was made by the user's builder: from the type (with default values) the server gave, or with fetchPresent from
      this with the present value assigned. *)
  Theorem C67_put es v : auto g = true -> op_kind g = Put -> In (SentExec V v) (told es) ->
    if get_first g then exists d0 d, In (InitReply V d0 true false) es /\ In (Reply V true true d) es /\
        b (match d0, d with Some x, Some y => Some (assign x y) | _, _ => d0 end) = v
    else exists d0, In (InitReply V d0 true false) es /\ b d0 = v.
  Proof. intros AU K X. exact (K_out _ _ _ _ _ _ _ (K_reach V assign g AU K b a es) v X). Qed.
End Props.

(** *** Counterexamples *)
Section Refuted.
  Notation plus := Nat.add.
  Definition cfg k au gf := {| op_kind := k; auto := au; get_first := gf |}.
  Definition same (x : option nat) := x.

  (** The connection is lost while the reply to a PUT is awaited: it is sent again. *)
  Theorem C38_refuted : count (executes nat)
    (told plus (cfg Put true false) same None [Build nat true; Create nat; InitReply nat (Some 1) true false; Detach nat; Lost nat; Create nat; InitReply nat (Some 1) true false]) = 2.
  Proof. reflexivity. Qed.
  (** reExecGet() of a GET: the connection is lost, and the callback is never invoked, also not after the next connect. *)
  Theorem C37_reexec_lost_refuted : let es := [Build nat true; Create nat; InitReply nat (Some 1) true false; ReExec nat false 0 0; Detach nat; Lost nat; Create nat; InitReply nat (Some 1) true false] in
    let g := cfg Get false false in
    count (is_call nat) (told plus g same None es) = 0 /\ st nat (after plus g same None es) = Idle.
  Proof. cbv zeta. split; reflexivity. Qed.
  (** reExecGet() while not connected: the callback is thrown away. *)
  Theorem C37_reexec_early_refuted : told plus (cfg Get false false) same None [Build nat true; ReExec nat false 0 0] = [Dropped nat 1].
  Proof. reflexivity. Qed.
  (** The callback of reExecGet() is invoked twice: with the result, and when a later INIT is refused. *)
  Theorem C37_reexec_twice_refuted : count (calls nat 1) (told plus (cfg Get false false) same None
    [Build nat true; Create nat; InitReply nat (Some 1) true false; ReExec nat false 0 0; Reply nat false true (Some 2); Detach nat; Lost nat; Create nat; InitReply nat None false false]) = 2.
  Proof. reflexivity. Qed.
  (** A refused reExecPut() ends the connection, and its callback is not invoked. *)
  Theorem C37_reexec_error_refuted : told plus (cfg Put false false) same None
    [Build nat true; Create nat; InitReply nat (Some 1) true false; ReExec nat true 5 0; Reply nat false false None] = [SentInit nat; OnInit nat; SentExec nat (Some 5); HangUp nat].
  Proof. reflexivity. Qed.
  (** An operation cancelled by an onDisconnect() callback uses the connection its channel has no more. *)
  Theorem C66_refuted : In (NullDeref nat) (told plus (cfg Get true false) same None [Build nat true; Create nat; InitReply nat (Some 1) true false; Detach nat; Cancel nat]).
  Proof. right. right. right. left. reflexivity. Qed.

  (** *** The hypotheses are met *)
  Definition es1 : list (event nat) :=
    [Build nat true; Create nat; InitReply nat (Some 10) true false; Detach nat; Lost nat; Create nat; InitReply nat (Some 20) true false; Reply nat true true (Some 3)].
  Example C37_example : let g := cfg Put true true in let es := es1 ++ [Reply nat false true None] in
    told plus g same None es = [SentInit nat; OnInit nat; SentGet nat; SentInit nat; OnInit nat; SentGet nat; SentExec nat (Some 23); SentDestroy nat; Called nat 0 (Ok nat None)] /\
    st nat (after plus g same None es) = Done /\ count (gives_up nat) es = 0 /\ known nat (after plus g same None es1) = true /\ st nat (after plus g same None es1) = Exec /\
    orderly nat false (es1 ++ [Drop nat]) /\ lost_executing nat plus g (new_gpr nat same None) es = 0.
  Proof. cbv zeta. repeat split. Qed.
  (** a reExecPut() under way *)
  Example C38_example : let g := cfg Put false false in let es := [Build nat true; Create nat; InitReply nat (Some 1) true false] in
    known nat (after plus g same None es) = true /\ st nat (after plus g same None es) = Idle /\ st nat (after plus g same None (es ++ [ReExec nat true 5 0])) = Exec /\
    told plus g same None (es ++ [ReExec nat true 5 0; ReExec nat true 6 1; Reply nat true true None]) = [SentInit nat; OnInit nat; SentExec nat (Some 5); Dropped nat 2; HangUp nat].
  Proof. cbv zeta. repeat split. Qed.
  Example C65_example : exists s, honest nat plus (cfg Get true false) (fun _ _ => True) same None s (Some ToExec) /\ st nat s = Done /\ allowed nat (Some ToExec) (Reply nat false true (Some 1)).
  Proof.
    pose proof (honest_new nat plus (cfg Get true false) (fun _ _ => True) same None) as H.
    pose proof (honest_step nat plus _ _ _ _ _ _ (Build nat true) H I I) as H1. pose proof (honest_step nat plus _ _ _ _ _ _ (Create nat) H1 I I) as H2.
    pose proof (honest_step nat plus _ _ _ _ _ _ (InitReply nat (Some 1) true false) H2 eq_refl I) as H3. pose proof (honest_step nat plus _ _ _ _ _ _ (Cancel nat) H3 I I) as H4.
    eexists. split; [exact H4|]. split; reflexivity.
  Qed.
  Example C37_info_example : snd (irun new_info [IBuild true; ICreate; IDetach; ILost; ICreate; IReply true; IReply true]) = [ISent; ISent; ICalled true].
  Proof. reflexivity. Qed.
End Refuted.

Print Assumptions C37_once.
Print Assumptions C37_final.
Print Assumptions C37_told.
Print Assumptions C37_cancelled.
Print Assumptions C37_dropped.
Print Assumptions C37_reply.
Print Assumptions C37_info_once.
Print Assumptions C37_info_cancelled.
Print Assumptions C38_partial.
Print Assumptions C38_reexec.
Print Assumptions C65_gpr.
Print Assumptions C65_reexec_partial.
Print Assumptions C66_partial.
Print Assumptions C67_put.
Print Assumptions C38_refuted.
Print Assumptions C37_reexec_lost_refuted.
Print Assumptions C37_reexec_early_refuted.
Print Assumptions C37_reexec_twice_refuted.
Print Assumptions C37_reexec_error_refuted.
Print Assumptions C66_refuted.
Print Assumptions C65_unsolicited.
Print Assumptions C38_one_outstanding.
Print Assumptions C37_reexec_put_partial.
Print Assumptions C37_reexec_put_lost.
