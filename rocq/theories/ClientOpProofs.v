(** Proofs about client operations. *)
From Coq Require Import List Bool Arith Lia.
From Verif Require Import ClientOpModel ClientOpSpec.
Import ListNotations.

Section Op.
  Variable V : Type.
  Variable assign : V -> V -> V.
  Variable g : config.
  Notation gpr := (gpr V). Notation event := (event V). Notation out := (out V).
  Notation step := (step V assign g). Notation run := (run V assign g). Notation st := (st V). Notation who := (who V). Notation known := (known V).

  Lemma run_app : forall es s es', run s (es ++ es') = let '(s1, o1) := run s es in let '(s2, o2) := run s1 es' in (s2, o1 ++ o2).
  Proof.
    induction es as [|e es IH]; intros s es'; cbn [ClientOpModel.run app].
    - destruct (run s es'); reflexivity.
    - destruct (step s e) as [s1 o1]. rewrite IH. destruct (run s1 es) as [s2 o2]. destruct (run s2 es') as [s3 o3]. rewrite app_assoc. reflexivity.
  Qed.
  Lemma run_ind_end : forall (P : gpr -> list event -> list out -> Prop) s0,
    P s0 [] [] -> (forall s a o e, P s a o -> P (fst (step s e)) (a ++ [e]) (o ++ snd (step s e))) ->
    forall es, P (fst (run s0 es)) es (snd (run s0 es)).
  Proof.
    intros P s0 B S es. induction es as [|e es IH] using rev_ind; [exact B|]. rewrite run_app. destruct (run s0 es) as [s o] eqn:R. cbn [fst snd] in *.
    cbn [ClientOpModel.run]. specialize (S s _ o e IH). destruct (step s e) as [s1 o1]. cbn [fst snd] in *. rewrite !app_nil_r. exact S.
  Qed.
  Lemma count_app : forall A (f : A -> bool) a b, count f (a ++ b) = count f a + count f b.
  Proof. intros. unfold count. rewrite filter_app, app_length. reflexivity. Qed.
  Lemma count_in : forall A (f : A -> bool) l, count f l <> 0 -> exists x, In x l /\ f x = true.
  Proof. intros A f l. unfold count. destruct (filter f l) as [|x r] eqn:E; [cbn; congruence|]. intros _. exists x. apply filter_In. rewrite E. left. reflexivity. Qed.

  Ltac cases := repeat match goal with
    | |- context [match ?x with _ => _ end] => is_var x; destruct x
    | |- context [if ?x then _ else _] => is_var x; destruct x
    end.
  (** every branch of a step *)
  Ltac branches s e :=
    let T := fresh "T" in
    destruct s as [T w bu ar kn at_]; destruct e as [[]| | | |d [] []|[] [] d| | |[] v n]; unfold ClientOpModel.step, set_up, create, lost, init_reply, reply, cancel, drop, cancel_, re_exec_impl, re_exec, build_put, ended, send_exec, notify in *;
    cbn [ClientOpModel.st ClientOpModel.who ClientOpModel.build ClientOpModel.arg ClientOpModel.known ClientOpModel.attached set_st set_known set_who set_build set_arg set_attached] in *;
    destruct T; try destruct kn; cbn [negb] in *;
    repeat match goal with
    | |- context [match ?x with _ => _ end] => first [is_var x; destruct x | match x with op_kind g => destruct (op_kind g) eqn:? | auto g => destruct (auto g) eqn:? | negb (auto g) => destruct (auto g) eqn:? | get_first g => destruct (get_first g) eqn:? | negb (get_first g) => destruct (get_first g) eqn:? | bu _ => destruct x eqn:? end];
        cbn [ClientOpModel.st ClientOpModel.who ClientOpModel.build ClientOpModel.arg ClientOpModel.known ClientOpModel.attached set_st set_known set_who set_build set_arg set_attached negb andb fst snd] in *
    end.

  (** ** autoExec *)
  Section Auto.
    Hypothesis AU : auto g = true.
    Definition final (x : state) : bool := match x with Done | Dead => true | _ => false end.
    Record J (s : gpr) (es : list event) (o : list out) : Prop := {
      J_none : final (st s) = false -> count (calls V 0) o = 0;
      J_once : count (calls V 0) o <= 1;
      J_told : final (st s) = true -> count (calls V 0) o = 0 -> count (gives_up V) es <> 0;
      J_who : count (gives_up V) es = 0 -> who s = Some 0;
      J_who0 : who s = Some 0 \/ who s = None
    }.
    Lemma J_new : forall b a, J (new_gpr V b a) [] [].
    Proof. intros. constructor; cbn; auto; discriminate. Qed.
    Lemma auto_step : forall s e, who s = Some 0 \/ who s = None ->
      (who (fst (step s e)) = who s \/ gives_up V e = true /\ who (fst (step s e)) = None) /\
      (final (st s) = true -> final (st (fst (step s e))) = true /\ count (calls V 0) (snd (step s e)) = 0) /\
      (final (st s) = false -> final (st (fst (step s e))) = false -> count (calls V 0) (snd (step s e)) = 0) /\
      (count (calls V 0) (snd (step s e)) <= 1) /\
      (final (st s) = false -> final (st (fst (step s e))) = true -> count (calls V 0) (snd (step s e)) = 0 -> gives_up V e = true \/ who s = None).
    Proof.
      intros s e W. assert (X : exists w, w = who s) by eauto. destruct X as (w0 & X). rewrite <- X in *.
      destruct W as [W|W]; subst w0; revert X; branches s e; intros X; try injection X as X; subst; try discriminate; cbn; intuition (try discriminate; auto).
    Qed.
    Lemma J_step : forall s es o e, J s es o -> J (fst (step s e)) (es ++ [e]) (o ++ snd (step s e)).
    Proof.
      intros s es o e [A B C D E]. destruct (auto_step s e E) as (W & F1 & F2 & F3 & F4).
      assert (G : count (gives_up V) [e] = if gives_up V e then 1 else 0) by (unfold count; cbn; destruct (gives_up V e); reflexivity).
      constructor; rewrite ?count_app, ?G.
      - intros F. destruct (final (st s)) eqn:FS; [destruct (F1 eq_refl); congruence|]. specialize (A eq_refl). specialize (F2 eq_refl F). lia.
      - destruct (final (st s)) eqn:FS; [destruct (F1 eq_refl); lia|]. specialize (A eq_refl). lia.
      - intros F Z. destruct (final (st s)) eqn:FS; [specialize (C eq_refl ltac:(lia)); lia|]. destruct (F4 eq_refl F ltac:(lia)) as [X|X]; [rewrite X; lia|].
        destruct (count (gives_up V) es) eqn:Y; [specialize (D eq_refl); congruence|lia].
      - intros Z. destruct (gives_up V e); [lia|]. destruct W as [W|(W & _)]; [|discriminate]. rewrite W. apply D. lia.
      - destruct W as [W|(_ & W)]; rewrite W; auto.
    Qed.
    Lemma J_reach : forall b a es, J (fst (run (new_gpr V b a) es)) es (snd (run (new_gpr V b a) es)).
    Proof. intros b a. apply run_ind_end; [apply J_new|]. intros. apply J_step. assumption. Qed.
  End Auto.

  (** ** given up *)
  Lemma who_none_step : forall s e, who s = None -> is_reexec V e = false -> who (fst (step s e)) = None /\ count (is_call V) (snd (step s e)) = 0.
  Proof. intros s e. branches s e; cbn; intros X R; subst; try discriminate; auto. Qed.
  Lemma who_none_run : forall es s, who s = None -> count (is_reexec V) es = 0 -> count (is_call V) (snd (run s es)) = 0.
  Proof.
    induction es as [|e es IH]; intros s W C; [reflexivity|]. cbn [ClientOpModel.run]. unfold count in C. cbn [filter] in C. destruct (is_reexec V e) eqn:R; [discriminate|].
    destruct (who_none_step s e W R) as (W1 & N). destruct (step s e) as [s1 o1]. cbn [fst snd] in *. specialize (IH s1 W1 C). destruct (run s1 es) as [s2 o2]. cbn [snd] in *. rewrite count_app. lia.
  Qed.
  (** Done stays Done, and silent *)
  Lemma done_step : forall s e, st s = Done -> is_reexec V e = false -> st (fst (step s e)) = Done /\ count (is_call V) (snd (step s e)) = 0.
  Proof. intros s e. branches s e; cbn; intros X R; try discriminate; auto. Qed.
  Lemma done_run : forall es s, st s = Done -> count (is_reexec V) es = 0 -> count (is_call V) (snd (run s es)) = 0.
  Proof.
    induction es as [|e es IH]; intros s W C; [reflexivity|]. cbn [ClientOpModel.run]. unfold count in C. cbn [filter] in C. destruct (is_reexec V e) eqn:R; [discriminate|].
    destruct (done_step s e W R) as (W1 & N). destruct (step s e) as [s1 o1]. cbn [fst snd] in *. specialize (IH s1 W1 C). destruct (run s1 es) as [s2 o2]. cbn [snd] in *. rewrite count_app. lia.
  Qed.

  (** ** Executions *)
  Definition may (x : state) : nat := match x with Exec | Done | Dead => 0 | _ => 1 end.
  Lemma exec_auto_step : forall s e, auto g = true -> count (executes V) (snd (step s e)) + may (st (fst (step s e))) <= may (st s) + (match e, st s with Lost _, Exec => 1 | _, _ => 0 end).
  Proof. intros s e AU. branches s e; cbn; try discriminate; auto. Qed.
  Lemma exec_auto_run : forall es s, auto g = true -> count (executes V) (snd (run s es)) + may (st (fst (run s es))) <= may (st s) + lost_executing V assign g s es.
  Proof.
    induction es as [|e es IH]; intros s AU; cbn [ClientOpModel.run lost_executing]; [cbn; lia|]. pose proof (exec_auto_step s e AU) as X.
    destruct (step s e) as [s1 o1]. cbn [fst snd] in *. specialize (IH s1 AU). destruct (run s1 es) as [s2 o2]. cbn [fst snd] in *. rewrite count_app. lia.
  Qed.
  Lemma exec_put_step : forall s e, auto g = false -> op_kind g = Put -> count (executes V) (snd (step s e)) <= (if is_put V e then 1 else 0).
  Proof. intros s e AU K. branches s e; cbn; try discriminate; auto. Qed.
  Lemma exec_put_run : forall es s, auto g = false -> op_kind g = Put -> count (executes V) (snd (run s es)) <= count (is_put V) es.
  Proof.
    induction es as [|e es IH]; intros s AU K; [auto|]. change (e :: es) with ([e] ++ es). rewrite (count_app _ (is_put V) [e] es). cbn [ClientOpModel.run app]. pose proof (exec_put_step s e AU K) as X.
    destruct (step s e) as [s1 o1]. cbn [fst snd] in *. specialize (IH s1 AU K). destruct (run s1 es) as [s2 o2]. cbn [fst snd] in *. rewrite count_app. unfold count at 3. cbn [filter]. destruct (is_put V e); cbn [length]; lia.
  Qed.

  (** ** A server which keeps to the protocol *)
  Record Hon (s : gpr) (owed : option request) : Prop := {
    Hon_init : known s = true -> owed = Some ToInit -> st s = Creating;
    Hon_get : known s = true -> owed = Some ToGet -> st s = GetOPut;
    Hon_exec : known s = true -> owed = Some ToExec -> st s = Exec;
    Hon_at : match st s with Creating | Idle | GetOPut | Exec => known s = true | Done => True | _ => known s = false end
  }.
  Lemma hon_step : forall careful b a s owed, honest V assign g careful b a s owed -> Hon s owed.
  Proof.
    intros careful b a s owed H. induction H as [|s owed e _ IH AL _]; [constructor; cbn; auto; discriminate|]. destruct IH as [A B C D].
    revert A B C D AL. branches s e; cbn; intros A B C D AL; try discriminate; try (constructor; cbn; auto; intros; try discriminate; subst; auto; fail).
  Qed.
  (** what is awaited was asked for *)
  Definition awaits (x : state) : option request := match x with Creating => Some ToInit | GetOPut => Some ToGet | Exec => Some ToExec | _ => None end.
  Lemma hon_awaits : forall careful b a s owed, honest V assign g careful b a s owed -> awaits (st s) = None \/ awaits (st s) = owed.
  Proof.
    intros careful b a s owed H. induction H as [|s owed e H IH AL _]; [cbn; auto|]. pose proof (Hon_at _ _ (hon_step _ _ _ _ _ H)) as AT. clear H.
    revert IH AL AT. branches s e; cbn; intros IH AL AT; try discriminate; auto; try (destruct IH as [IH|IH]; try discriminate; subst; auto; discriminate).
  Qed.
  Lemma unsolicited : forall s owed e, awaits (st s) = None \/ awaits (st s) = owed ->
    match e with InitReply _ _ _ _ => owed <> Some ToInit | Reply _ get _ _ => owed <> Some (if get then ToGet else ToExec) | _ => False end ->
    fst (step s e) = s /\ (snd (step s e) = [] \/ snd (step s e) = [HangUp V]).
  Proof.
    intros s owed e. branches s e; cbn; intros IH AL; try contradiction; auto; exfalso; destruct IH as [IH|IH]; try discriminate; subst; congruence.
  Qed.
  Lemma outstanding : forall s owed p v n x, awaits (st s) = None \/ awaits (st s) = owed -> owed <> None -> awaits (st s) <> None ->
    In x (snd (step s (ReExec V p v n))) -> executes V x = false /\ x <> SentGet V.
  Proof.
    intros s owed p v n x. cbn [ClientOpModel.step]. unfold re_exec_impl. intros A N B. destruct (auto g); [intros [<-|[]]; split; [reflexivity|discriminate]|].
    destruct (st s); try (intros [<-|[]]; split; [reflexivity|discriminate]). elim B. reflexivity.
  Qed.
  Lemma hon_hang : forall s owed e, Hon s owed -> allowed V owed e -> In (HangUp V) (snd (step s e)) -> auto g = false /\ exists gt d, e = Reply V gt false d.
  Proof.
    intros s owed e [A B C D] AL. revert A B C D AL. branches s e; cbn; intros A B C D AL; try (intros X; exfalso; intuition discriminate); intuition eauto; try discriminate.
    all: exfalso; subst; try (specialize (A eq_refl eq_refl); discriminate); try (specialize (B eq_refl eq_refl); discriminate); try (specialize (C eq_refl eq_refl); discriminate).
  Qed.

  (** ** Null pointers *)
  Definition active (x : state) : bool := match x with Creating | Idle | GetOPut | Exec => true | _ => false end.
  Lemma null_step : forall s e dd, (dd = false -> active (st s) = true -> attached V s = true) -> (gives_up V e = true -> dd = false) ->
    ~ In (NullDeref V) (snd (step s e)) /\
    ((match e with Detach _ => true | Lost _ => false | _ => dd end) = false -> active (st (fst (step s e))) = true -> attached V (fst (step s e)) = true).
  Proof.
    intros s e dd. branches s e; cbn; intros A B; (split; [try (intros X; decompose [or] X; try discriminate; try contradiction)|]); auto; try discriminate; intros; subst; try discriminate; auto.
    all: try (specialize (B eq_refl); subst dd; specialize (A eq_refl eq_refl); discriminate).
  Qed.
  Lemma null_run : forall es s d, (d = false -> active (st s) = true -> attached V s = true) -> orderly V d es -> ~ In (NullDeref V) (snd (run s es)).
  Proof.
    induction es as [|e es IH]; intros s d A O; [intros []|]. cbn [ClientOpModel.run].
    assert (GU : gives_up V e = true -> d = false) by (destruct e; cbn in *; intros; try discriminate; tauto).
    destruct (null_step s e d A GU) as (N & A1). destruct (step s e) as [s1 o1]. cbn [fst snd] in *.
    specialize (IH s1 _ A1). assert (O1 : orderly V (match e with Detach _ => true | Lost _ => false | _ => d end) es) by (destruct e; cbn in O; tauto). specialize (IH O1).
    destruct (run s1 es) as [s2 o2]. cbn [snd] in *. rewrite in_app_iff. tauto.
  Qed.

  (** ** What is put *)
  Section Puts.
    Hypothesis AU : auto g = true.
    Hypothesis KD : op_kind g = Put.
    Variable b : option V -> option V.
    Definition current (d0 d : option V) : option V := match d0, d with Some a, Some x => Some (assign a x) | _, _ => d0 end.
    Definition right_put (es : list event) (v : option V) : Prop :=
      if get_first g then exists d0 d, In (InitReply V d0 true false) es /\ In (Reply V true true d) es /\ b (current d0 d) = v
      else exists d0, In (InitReply V d0 true false) es /\ b d0 = v.
    Record K (s : gpr) (es : list event) (o : list out) : Prop := {
      K_build : build V s = b;
      K_get : st s = GetOPut -> get_first g = true /\ In (InitReply V (arg V s) true false) es;
      K_out : forall v, In (SentExec V v) o -> right_put es v
    }.
    Lemma right_more : forall es e v, right_put es v -> right_put (es ++ [e]) v.
    Proof. unfold right_put. intros es e v. destruct (get_first g); [intros (d0 & d & A & B & C); exists d0, d|intros (d0 & A & C); exists d0]; rewrite !in_app_iff; auto. Qed.
    Lemma K_step : forall s es o e, K s es o -> K (fst (step s e)) (es ++ [e]) (o ++ snd (step s e)).
    Proof.
      intros s es o e [A B C].
      assert (C' : (forall v, In (SentExec V v) (snd (step s e)) -> right_put (es ++ [e]) v) -> forall v, In (SentExec V v) (o ++ snd (step s e)) -> right_put (es ++ [e]) v).
      { intros X v. rewrite in_app_iff. intros [Y|Y]; [apply right_more; auto|auto]. }
      assert (N : build V (fst (step s e)) = b /\ (st (fst (step s e)) = GetOPut -> get_first g = true /\ In (InitReply V (arg V (fst (step s e))) true false) (es ++ [e])) /\
        (forall v, In (SentExec V v) (snd (step s e)) -> right_put (es ++ [e]) v)); [|destruct N as (N1 & N2 & N3); constructor; auto].
      clear C C'. unfold right_put. revert A B. branches s e; cbn; intros A B; subst; try discriminate; (split; [reflexivity|]); (split; [|intros vv X; decompose [or] X; try discriminate; try contradiction]);
        try (intros X; try discriminate; destruct (B eq_refl); rewrite in_app_iff; auto; fail).
      - intros _. split; [reflexivity|]. apply in_or_app. right. left. reflexivity.
      - exists d. split; [apply in_or_app; right; left; reflexivity|congruence].
      - destruct (B eq_refl) as (_ & I). exists (Some v), (Some v0). rewrite !in_app_iff. cbn. intuition congruence.
      - destruct (B eq_refl). discriminate.
      - destruct (B eq_refl) as (_ & I). exists (Some v), None. rewrite !in_app_iff. cbn. intuition congruence.
      - destruct (B eq_refl). discriminate.
      - destruct (B eq_refl) as (_ & I). exists None, d. rewrite !in_app_iff. cbn. intuition congruence.
      - destruct (B eq_refl). discriminate.
    Qed.
    Lemma K_reach : forall a es, K (fst (run (new_gpr V b a) es)) es (snd (run (new_gpr V b a) es)).
    Proof. intros a. apply run_ind_end; [constructor; cbn; auto; [discriminate|intros v []]|]. intros. apply K_step. assumption. Qed.
  End Puts.
End Op.

(** ** InfoOp *)
Section Info.
  Lemma irun_app : forall es s es', irun s (es ++ es') = let '(s1, o1) := irun s es in let '(s2, o2) := irun s1 es' in (s2, o1 ++ o2).
  Proof.
    induction es as [|e es IH]; intros s es'; cbn [irun app].
    - destruct (irun s es'); reflexivity.
    - destruct (istep s e) as [s1 o1]. rewrite IH. destruct (irun s1 es) as [s2 o2]. destruct (irun s2 es') as [s3 o3]. rewrite app_assoc. reflexivity.
  Qed.
  Definition ifinal (x : istate) : bool := match x with IDone | IDead => true | _ => false end.
  Record IJ (s : info) (es : list ievent) (o : list iout) : Prop := {
    IJ_none : ifinal (i_st s) = false -> count i_calls o = 0 /\ (count i_gives_up es = 0 -> i_done s = true);
    IJ_once : count i_calls o <= 1;
    IJ_told : ifinal (i_st s) = true -> count i_calls o = 0 -> count i_gives_up es <> 0
  }.
  Lemma IJ_reach : forall es, IJ (fst (irun new_info es)) es (snd (irun new_info es)).
  Proof.
    intros es. induction es as [|e es IH] using rev_ind; [constructor; cbn; auto; discriminate|]. rewrite irun_app. destruct (irun new_info es) as [s o]. cbn [fst snd] in *. destruct IH as [A B C].
    cbn [irun]. assert (G : count i_gives_up [e] = if i_gives_up e then 1 else 0) by (unfold count; cbn; destruct (i_gives_up e); reflexivity).
    destruct s as [T dn kn at_]. cbn in A, B, C.
    assert (X : forall s' o', istep {| i_st := T; i_done := dn; i_known := kn; i_attached := at_ |} e = (s', o') ->
      (ifinal T = true -> ifinal (i_st s') = true /\ count i_calls o' = 0) /\ (ifinal T = false -> ifinal (i_st s') = false -> count i_calls o' = 0 /\ (i_gives_up e = false -> i_done s' = dn)) /\
      count i_calls o' <= 1 /\ (ifinal T = false -> ifinal (i_st s') = true -> count i_calls o' = 0 -> i_gives_up e = true \/ dn = false)).
    { intros s' o' E. destruct e as [[]| | | |[]| |], T, kn, at_, dn; cbn in E; injection E as <- <-; cbn; intuition (try discriminate; auto). }
    destruct (istep _ e) as [s' o']. specialize (X s' o' eq_refl). destruct X as (F1 & F2 & F3 & F4). cbn [fst snd]. rewrite app_nil_r.
    constructor; rewrite ?count_app, ?G.
    - intros F. destruct (ifinal T) eqn:FT; [destruct (F1 eq_refl); congruence|]. destruct (A eq_refl) as (A1 & A2). destruct (F2 eq_refl F) as (B1 & B2). split; [lia|]. intros Z. destruct (i_gives_up e); [lia|]. rewrite B2 by reflexivity. apply A2. lia.
    - destruct (ifinal T) eqn:FT; [destruct (F1 eq_refl); lia|]. destruct (A eq_refl) as (A1 & A2). lia.
    - intros F Z. destruct (ifinal T) eqn:FT; [specialize (C eq_refl ltac:(lia)); lia|]. destruct (F4 eq_refl F ltac:(lia)) as [X|X]; [rewrite X; lia|].
      destruct (A eq_refl) as (A1 & A2). destruct (count i_gives_up es); [specialize (A2 eq_refl); congruence|lia].
  Qed.
  Lemma i_silent_step : forall s e, i_done s = false \/ i_st s = IDone -> (i_done (fst (istep s e)) = false \/ i_st (fst (istep s e)) = IDone) /\ count i_calls (snd (istep s e)) = 0.
  Proof. intros [T dn kn at_] e H. destruct e as [[]| | | |[]| |], T, kn, at_, dn; cbn in *; intuition (try discriminate; auto). Qed.
  Lemma i_silent : forall es s, i_done s = false \/ i_st s = IDone -> count i_calls (snd (irun s es)) = 0.
  Proof.
    induction es as [|e es IH]; intros s H; [reflexivity|]. cbn [irun]. destruct (i_silent_step s e H) as (A & B). destruct (istep s e) as [s1 o1]. cbn [fst snd] in *.
    specialize (IH s1 A). destruct (irun s1 es) as [s2 o2]. cbn [snd] in *. rewrite count_app. lia.
  Qed.
End Info.
