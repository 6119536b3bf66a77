(** Proofs about SharedPV. *)
From Coq Require Import List Bool Arith Lia.
From Verif Require Import ServerMonModel ServerMonSpec ServerMonProofs SharedPVModel SharedPVSpec.
Import ListNotations.

Section Proofs.
  Variable V : Type.
  Variable assign : V -> V -> V.
  Variable clone : V -> V.
  Variable wants : nat -> V -> bool.
  Notation ref := (ref V).
  Notation msub := (msub V).
  Notation inv := (inv ref).
  Notation mstep id := (step ref (mreal V wants id) (rsquash V)).
  Notation post_one := (post_one V assign wants).
  Notation post_all := (post_all V assign wants).
  Notation pstep := (pstep V assign clone wants).
  Notation prun := (prun V assign clone wants).
  Notation offers_of := (offers_of V).
  Notation sends_of := (sends_of V).

  Lemma offers_app id a b : offers_of id (a ++ b) = offers_of id a ++ offers_of id b.
  Proof. induction a as [|[k v|k v] a IH]; cbn; auto. destruct (k =? id); cbn; now rewrite IH. Qed.
  Lemma sends_app id a b : sends_of id (a ++ b) = sends_of id a ++ sends_of id b.
  Proof. induction a as [|[k v|k v] a IH]; cbn; auto. destruct (k =? id); cbn; now rewrite IH. Qed.
  Lemma set_sub_same id m s : set_sub V id m s id = Some m.
  Proof. unfold set_sub. now rewrite Nat.eqb_refl. Qed.
  Lemma set_sub_other id m s k : k <> id -> set_sub V id m s k = s k.
  Proof. intro H. unfold set_sub. apply Nat.eqb_neq in H. now rewrite H. Qed.
  Lemma prun_cons p e es p2 l2 : prun p (e :: es) = Some (p2, l2) ->
    exists p1 l1 l', pstep p e = Some (p1, l1) /\ prun p1 es = Some (p2, l') /\ l2 = l1 ++ l'.
  Proof.
    cbn. destruct (pstep p e) as [(p1, l1)|]; [|discriminate]. destruct (prun p1 es) as [(p3, l')|] eqn:R; [|discriminate]. injection 1 as <- <-. eauto 8.
  Qed.
  Lemma prun_app es1 : forall es2 p p2 l2, prun p (es1 ++ es2) = Some (p2, l2) ->
    exists p1 l1 l', prun p es1 = Some (p1, l1) /\ prun p1 es2 = Some (p2, l') /\ l2 = l1 ++ l'.
  Proof.
    induction es1 as [|e es1 IH]; intros es2 p p2 l2 R; [exists p, [], l2; auto|].
    cbn [app] in R. apply prun_cons in R. destruct R as (p1 & l1 & l' & S & R & ->). destruct (IH _ _ _ _ R) as (p3 & l3 & l4 & R1 & R2 & ->).
    exists p3, (l1 ++ l3), l4. cbn. rewrite S, R1, <- app_assoc. auto.
  Qed.

  (** ** Single subscriptions *)

  Definition good (m : msub) : Prop := inv m /\ finished ref m = false.

  Lemma typed_cleanup m m' o : cleanup ref m = (m', o) -> typed ref m' = typed ref m.
  Proof. unfold cleanup. destruct (state_eqb (st ref m) Dead); intro E; injection E as <- <-; reflexivity. Qed.
  Lemma typed_rest m s q m' o : reply_rest ref m s q = (m', o) -> typed ref m' = typed ref m.
  Proof.
    unfold reply_rest. set (m1 := set_queue _ _ _ _ _ _). assert (T : typed ref m1 = typed ref m) by reflexivity. clearbody m1.
    destruct (state_eqb (st ref m1) Dead).
    - destruct (cleanup ref m1) as (m2, o2) eqn:C. intro E. injection E as <- <-. apply typed_cleanup in C. congruence.
    - intro E. injection E as <- <-. rewrite <- T. clear T. assert (U : typed ref (use_window ref m1) = typed ref m1).
      { unfold use_window. destruct (_ && _); [|reflexivity]. destruct (_ && _); reflexivity. }
      rewrite <- U. unfold again. destruct (_ && _); reflexivity.
  Qed.
  Lemma typed_reply m m' o : do_reply ref m = (m', o) -> typed ref m' = typed ref m.
  Proof.
    unfold do_reply. intro E. destruct (alive ref m); cbn [negb] in E; [|injection E as <- <-; reflexivity].
    set (m1 := set_scheduled ref false m) in E. change (typed ref m) with (typed ref m1). clearbody m1. clear m.
    destruct (st ref m1).
    - apply typed_rest in E. exact E.
    - destruct (queue ref m1) as [|[u|] q]; apply typed_rest in E; exact E.
    - destruct (queue ref m1) as [|[u|] q]; [injection E as <- <-; reflexivity| |]; (destruct (_ && _); [injection E as <- <-; reflexivity|apply typed_rest in E; exact E]).
    - injection E as <- <-. reflexivity.
  Qed.
  Lemma typed_step id m e m' o : mstep id m e = Some (m', o) -> pv_event V e = true -> typed ref m' = typed ref m.
  Proof.
    intros E PE. destruct e; try discriminate; cbn [step] in E.
    - destruct (typed ref m) eqn:T; [|discriminate]. injection E as <- <-. destruct reset; cbn; auto.
    - destruct (mid ref m); [discriminate|]. injection E as <- <-. reflexivity.
    - destruct (mid ref m); [discriminate|]. destruct (_ || _); [discriminate|]. destruct (st ref m).
      + unfold cleanup in E. destruct (state_eqb _ _) eqn:?; injection E as <- <-; reflexivity.
      + set (m1 := match ack with Some _ => _ | None => _ end) in E. assert (T : typed ref m1 = typed ref m).
        { unfold m1, dispatch. destruct ack; [|reflexivity]. destruct (pipeline ref m); [|reflexivity]. destruct (_ && _); reflexivity. }
        clearbody m1. destruct run; injection E as <- <-; [exact T|]. unfold msg_tail. destruct destroy; exact T.
      + set (m1 := match ack with Some _ => _ | None => _ end) in E. assert (T : typed ref m1 = typed ref m).
        { unfold m1, dispatch. destruct ack; [|reflexivity]. destruct (pipeline ref m); [|reflexivity]. destruct (_ && _); reflexivity. }
        clearbody m1. destruct run; injection E as <- <-; [exact T|]. unfold msg_tail. destruct destroy; exact T.
      + injection E as <- <-. reflexivity.
    - destruct (mid ref m); [|discriminate]. injection E as <- <-. unfold msg_tail, maybe_reply, dispatch. destruct destroy; destruct (_ && _); reflexivity.
    - destruct (hi <? lo); [discriminate|]. injection E as <- <-. reflexivity.
    - destruct (typed ref m) eqn:T; [|discriminate]. injection E as <- <-. cbn. auto.
    - destruct (mid ref m); [discriminate|]. destruct (tasks ref m) as [|t ts]; [discriminate|]. injection E as E. destruct t; cbn in E;
        repeat match type of E with context [if ?b then _ else _] => destruct b eqn:? end; try (apply typed_reply in E; exact E); try (injection E as <- <-; reflexivity).
      + unfold cleanup in E. destruct (state_eqb _ _); injection E as <- <-; reflexivity.
    - destruct (mid ref m); [discriminate|]. destruct (backlog ref m) as [|t ts]; [discriminate|]. destruct (alive ref m); [|discriminate]. injection E as E. destruct t; cbn in E;
        repeat match type of E with context [if ?b then _ else _] => destruct b eqn:? end; try (apply typed_reply in E; exact E); try (injection E as <- <-; reflexivity).
      + unfold cleanup in E. destruct (state_eqb _ _); injection E as <- <-; reflexivity.
    - destruct (mid ref m); [discriminate|]. injection E as <- <-. reflexivity.
    - destruct (mid ref m); [discriminate|]. unfold cleanup in E. destruct (state_eqb _ _); injection E as <- <-; reflexivity.
  Qed.
  Lemma typed_connect id m m' o : mstep id m (EConnect ref) = Some (m', o) -> typed ref m' = true.
  Proof.
    cbn. destruct (mid ref m); [discriminate|]. destruct (state_eqb (st ref m) Creating); [|discriminate]. intro E. injection E as E. now apply typed_reply in E.
  Qed.

  (** a step which is not a post *)
  Lemma step_plain id m e m' o : mstep id m e = Some (m', o) -> good m -> (forall a b c, e <> EPost ref a b c) ->
    good m' /\ (e <> EStats ref true -> nsquash ref m' = nsquash ref m) /\
    ((sent ref o = [] /\ queue ref m' = queue ref m) \/ exists r, sent ref o = [r] /\ queue ref m = Some r :: queue ref m').
  Proof.
    intros E (I & FI) NP. pose proof (step_ok _ _ _ _ _ _ _ E I) as F. split; [split; [apply (s_inv _ _ _ _ _ _ _ F)|]|].
    - destruct (s_effect _ _ _ _ _ _ _ F) as [Q QU FN TK NQ _|val maybe force EE OE PE MQ|x O QU FN TK NS MQ SS _]; [congruence|now destruct (NP val maybe force)|congruence].
    - destruct (s_effect _ _ _ _ _ _ _ F) as [Q QU FN TK NQ _|val maybe force EE OE PE MQ|x O QU FN TK NS MQ SS _].
      + split; [intro H; now apply NQ|]. left. split; [now apply quiet_sent|exact QU].
      + now destruct (NP val maybe force).
      + split; [auto|]. right. destruct x as [r|].
        * exists r. rewrite O. auto.
        * exfalso. destruct I as (I0 & _). pose proof (i_queue _ _ I0) as (us & [X|(X & _)]); [|congruence]. rewrite QU in X. destruct us; discriminate.
  Qed.
  Lemma step_post id m r : good m -> typed ref m = true ->
    exists m' b, mstep id m (EPost ref (Some r) false false) = Some (m', [OReturn ref b]) /\ good m' /\ typed ref m' = true /\
      ((wants id (snd r) = false /\ queue ref m' = queue ref m /\ nsquash ref m' = nsquash ref m) \/
       (wants id (snd r) = true /\ queue ref m' = queue ref m ++ [Some r] /\ nsquash ref m' = nsquash ref m) \/
       (wants id (snd r) = true /\ queue ref m' = queue ref m /\ nsquash ref m' = S (nsquash ref m) /\ exists q b, queue ref m = q ++ [Some b])).
  Proof.
    intros (I & FI) T. destruct (do_post ref (mreal V wants id) (rsquash V) m (Some r) false false) as [m' o] eqn:E.
    assert (S : mstep id m (EPost ref (Some r) false false) = Some (m', o)) by (cbn; rewrite T; now f_equal).
    destruct (do_post_ok _ _ _ _ _ _ _ _ _ E I T) as (I' & PE & O & _ & _ & _ & _ & T' & _).
    exists m'. eexists. split; [rewrite S, O; reflexivity|]. split; [|split; [congruence|]].
    - split; [exact I'|]. destruct PE as [QU FN TK _ NS|u X QU FN FM RU NS TK _|u q b X QU QU' FN FM RU NS TK _|X QU FN FM NS]; try congruence; discriminate.
    - destruct PE as [QU FN TK _ NS|u X QU FN FM RU NS TK _|u q b X QU QU' FN FM RU NS TK _|X QU FN FM NS].
      + left. split; [|auto]. cbn in TK. unfold mreal in TK. rewrite FI in TK. destruct (wants id (snd r)); [discriminate|reflexivity].
      + right; left. injection X as <-. auto.
      + right; right. injection X as <-. split; [exact RU|]. split; [rewrite QU', QU; reflexivity|]. split; [exact NS|]. eauto.
      + discriminate.
  Qed.

  Definition goods (s : nat -> option msub) : Prop := forall id m, s id = Some m -> good m.

  Lemma create_good n pi q : good (create ref n pi q).
  Proof. split; [apply create_inv|reflexivity]. Qed.

  Lemma post_one_ok a v h s id h' s' l : post_one a v h s id = (h', s', l) -> goods s ->
    goods s' /\ (forall k, k <> id -> s' k = s k) /\
    match s id with
    | Some m =>
        exists m', s' id = Some m' /\ typed ref m' = typed ref m /\ nsquash ref m <= nsquash ref m' /\
        if typed ref m then
          l = [LOffer V id v] /\ h' = merge_back V assign m m' a h /\
          ((wants id v = false /\ queue ref m' = queue ref m /\ nsquash ref m' = nsquash ref m) \/
           (wants id v = true /\ queue ref m' = queue ref m ++ [Some (a, v)] /\ nsquash ref m' = nsquash ref m) \/
           (wants id v = true /\ queue ref m' = queue ref m /\ nsquash ref m' = S (nsquash ref m) /\ queue ref m <> []))
        else l = [] /\ h' = h /\ m' = m
    | None => l = [] /\ h' = h /\ s' = s
    end.
  Proof.
    unfold SharedPVModel.post_one. intros E G. destruct (s id) as [m|] eqn:SI; [|injection E as <- <- <-; auto].
    destruct (typed ref m) eqn:T.
    - destruct (step_post id m (a, v) (G _ _ SI) T) as (m' & b & S & G' & T' & C). unfold SharedPVModel.ref in *. rewrite S in E. injection E as <- <- <-.
      split; [|split; [intros k K; now apply set_sub_other|]].
      + intros k x H. destruct (Nat.eq_dec k id) as [->|N]; [rewrite set_sub_same in H; injection H as <-; exact G'|]. rewrite set_sub_other in H by exact N. now apply (G k).
      + exists m'. rewrite set_sub_same. split; [reflexivity|]. split; [exact T'|]. split; [destruct C as [C|[C|C]]; lia|]. split; [reflexivity|]. split; [reflexivity|].
        destruct C as [C|[C|(C1 & C2 & C3 & q & b' & C4)]]; auto. right; right. repeat split; auto. rewrite C4. now destruct q.
    - cbn [step] in E. rewrite T in E. injection E as <- <- <-. split; [exact G|]. split; [auto|]. exists m. rewrite T. auto 8.
  Qed.

  (** what post_all does to one subscription *)
  Lemma post_all_ok a v ids : forall h s h' s' l, post_all a v h s ids = (h', s', l) -> goods s ->
    goods s' /\ (forall k m, s k = Some m -> exists m', s' k = Some m' /\ typed ref m' = typed ref m /\ nsquash ref m <= nsquash ref m') /\
    (forall k, s k = None -> s' k = None) /\
    (forall k, ~ In k ids -> s' k = s k /\ offers_of k l = []) /\ (forall k, sends_of k l = []).
  Proof.
    induction ids as [|id ids IH]; intros h s h' s' l E G.
    - injection E as <- <- <-. split; [exact G|]. split; [intros k m H; exists m; auto|]. repeat split; auto.
    - cbn in E. destruct (post_one a v h s id) as [[h1 s1] l1] eqn:E1. destruct (post_all a v h1 s1 ids) as [[h2 s2] l2] eqn:E2. injection E as <- <- <-.
      destruct (post_one_ok _ _ _ _ _ _ _ _ E1 G) as (G1 & OT & X). destruct (IH _ _ _ _ _ E2 G1) as (G2 & M2 & N2 & O2 & S2).
      assert (L1 : forall k, k <> id -> offers_of k l1 = []).
      { intros k K. destruct (s id) as [m|]; [|destruct X as (-> & _); reflexivity]. destruct X as (m' & _ & _ & _ & X). destruct (typed ref m); destruct X as (-> & _); [|reflexivity].
        cbn. replace (id =? k) with false; [reflexivity|]. symmetry. apply Nat.eqb_neq. auto. }
      assert (L2 : forall k, sends_of k l1 = []).
      { intros k. destruct (s id) as [m|]; [|destruct X as (-> & _); reflexivity]. destruct X as (m' & _ & _ & _ & X). destruct (typed ref m); destruct X as (-> & _); reflexivity. }
      split; [exact G2|]. split; [|split; [|split]].
      + intros k m H. destruct (Nat.eq_dec k id) as [->|K].
        * rewrite H in X. destruct X as (m1 & H1 & T1 & Q1 & _). destruct (M2 _ _ H1) as (m2 & H2 & T2 & Q2). exists m2. split; [exact H2|]. split; [congruence|lia].
        * rewrite <- (OT k K) in H. exact (M2 _ _ H).
      + intros k H. apply N2. destruct (Nat.eq_dec k id) as [->|K]; [|now rewrite OT]. rewrite H in X. destruct X as (_ & _ & ->). exact H.
      + intros k K. cbn in K. destruct (O2 k) as (A & B); [tauto|]. rewrite offers_app, B, A, L1 by (intro; subst; tauto). split; [apply OT; intro; subst; tauto|reflexivity].
      + intro k. now rewrite sends_app, L2, S2.
  Qed.

  (** ** Without merging *)

  Definition faithful (h : list V) (s : nat -> option msub) (l : list (log V)) : Prop :=
    forall id, match s id with
    | Some m => (forall r, In (Some r) (queue ref m) -> nth_error h (fst r) = Some (snd r)) /\
        sends_of id l ++ map snd (pending ref m) = filter (wants id) (offers_of id l)
    | None => offers_of id l = [] /\ sends_of id l = []
    end.
  Definition calm (s : nat -> option msub) : Prop := forall id m, s id = Some m -> nsquash ref m = 0.

  Lemma faithful_grow h x s l : faithful h s l -> faithful (h ++ x) s l.
  Proof.
    intros F id. specialize (F id). destruct (s id) as [m|]; [|exact F]. destruct F as (A & B). split; [|exact B]. intros r H. specialize (A r H).
    rewrite nth_error_app1; [exact A|]. apply nth_error_Some. congruence.
  Qed.
  Lemma faithful_post_one a v h s id h' s' l0 l : post_one a v h s id = (h', s', l) -> goods s -> calm s' ->
    nth_error h a = Some v -> faithful h s l0 -> h' = h /\ faithful h s' (l0 ++ l).
  Proof.
    intros E G C HA F. destruct (post_one_ok _ _ _ _ _ _ _ _ E G) as (_ & OT & X).
    assert (NIL : l = [] -> faithful h s (l0 ++ l)) by (intros ->; now rewrite app_nil_r).
    destruct (s id) as [m|] eqn:SI; [|destruct X as (? & -> & ->); auto].
    destruct X as (m' & S' & _ & NQ & X). destruct (typed ref m).
    2:{ destruct X as (? & -> & ->). split; [reflexivity|]. intro k. assert (EQ : s' k = s k) by (destruct (Nat.eq_dec k id) as [->|K]; [congruence|now apply OT]). rewrite EQ. now apply NIL. }
    destruct X as (-> & -> & X). pose proof (C _ _ S') as Z.
    assert (N0 : nsquash ref m' = nsquash ref m) by (destruct X as [X|[X|X]]; lia).
    split; [unfold merge_back; now rewrite N0, Nat.eqb_refl|].
    intro k. specialize (F k). destruct (Nat.eq_dec k id) as [->|K].
    - rewrite SI in F. rewrite S'. destruct F as (F1 & F2). rewrite offers_app, sends_app, filter_app. cbn. rewrite Nat.eqb_refl. rewrite app_nil_r. cbn [filter].
      destruct X as [(W & Q & _)|[(W & Q & _)|(_ & _ & Y & _)]]; [| |lia]; rewrite W; unfold pending in *; rewrite Q.
      + rewrite app_nil_r. auto.
      + split.
        * intros r H. apply in_app_or in H. destruct H as [H|[H|[]]]; [auto|]. injection H as <-. exact HA.
        * rewrite pending_app, map_app, app_assoc.
          apply (f_equal2 (@app V)); [exact F2|reflexivity].
    - rewrite OT by exact K. assert (B : id =? k = false) by (apply Nat.eqb_neq; auto).
      rewrite offers_app, sends_app. cbn [SharedPVSpec.offers_of SharedPVSpec.sends_of]. rewrite B, !app_nil_r. exact F.
  Qed.
  Lemma faithful_post_all a v ids : forall h s h' s' l0 l, post_all a v h s ids = (h', s', l) -> goods s -> calm s' ->
    nth_error h a = Some v -> faithful h s l0 -> h' = h /\ faithful h s' (l0 ++ l).
  Proof.
    induction ids as [|id ids IH]; intros h s h' s' l0 l E G C HA F.
    - injection E as <- <- <-. rewrite app_nil_r. auto.
    - cbn in E. destruct (post_one a v h s id) as [[h1 s1] l1] eqn:E1. destruct (post_all a v h1 s1 ids) as [[h2 s2] l2] eqn:E2. injection E as <- <- <-.
      destruct (post_one_ok _ _ _ _ _ _ _ _ E1 G) as (G1 & _). destruct (post_all_ok _ _ _ _ _ _ _ _ E2 G1) as (_ & M2 & _).
      destruct (faithful_post_one _ _ _ _ _ _ _ l0 _ E1 G) as (-> & F1); auto.
      { intros k m H. destruct (M2 _ _ H) as (m2 & H2 & _ & Q). specialize (C _ _ H2). lia. }
      rewrite app_assoc. now apply (IH _ _ _ _ _ _ E2).
  Qed.

  (** ** Steps of the whole *)
  Lemma connect_ok id m m1 : (m1 = match mstep id m (EConnect ref) with Some (x, _) => x | None => m end) -> good m ->
    good m1 /\ nsquash ref m1 = nsquash ref m /\ (typed ref m = true -> typed ref m1 = true) /\
    (typed ref m = false -> queue ref m1 = []) /\ (typed ref m = true -> queue ref m1 = queue ref m).
  Proof.
    intros -> G. destruct (mstep id m (EConnect ref)) as [(x, o)|] eqn:E.
    - destruct (step_plain _ _ _ _ _ E G) as (G' & NQ & Q); [discriminate|]. split; [exact G'|]. split; [apply NQ; discriminate|].
      assert (ST : st ref m = Creating).
      { cbn in E. destruct (mid ref m); [discriminate|]. destruct (st ref m); try discriminate. reflexivity. }
      destruct G as ((I0 & _ & CT) & _). pose proof (CT ST) as TF. pose proof (i_creating _ _ I0 ST) as (QE & _).
      split; [intro; congruence|]. split; [intros _; destruct Q as [(_ & Q)|(r & _ & Q)]; congruence|intro; congruence].
    - split; [exact G|]. split; [reflexivity|]. split; [auto|]. split; [|auto]. intro T. destruct G as ((I0 & _) & _). exact (proj1 (i_typed _ _ I0 T)).
  Qed.

  Lemma pstep_good p e p' l : pstep p e = Some (p', l) -> goods (subs V p) -> goods (subs V p').
  Proof.
    intros E G. destruct e; cbn [SharedPVModel.pstep] in E.
    - destruct (current V p); [discriminate|]. injection E as <- <-. exact G.
    - injection E as <- <-. exact G.
    - destruct (current V p); [|discriminate]. destruct (members V p) as [|id ids]; [injection E as <- <-; exact G|].
      destruct (post_all _ _ _ _ (id :: ids)) as [[h s] l'] eqn:PA. injection E as <- <-. cbn. exact (proj1 (post_all_ok _ _ _ _ _ _ _ _ PA G)).
    - destruct (subs V p id) eqn:SI; [discriminate|]. destruct (current V p); injection E as <- <-; cbn; intros k x H;
        (destruct (Nat.eq_dec k id) as [->|N]; [rewrite set_sub_same in H; injection H as <-; apply create_good|rewrite set_sub_other in H by exact N; now apply (G k)]).
    - destruct (find_conn id (connecting V p)) as [a|]; [|discriminate]. destruct (subs V p id) as [m|] eqn:SI; [|discriminate].
      destruct (nth_error (heap V p) a) as [v|]; [|discriminate].
      match type of E with context [set_sub V id ?x _] => set (m1 := x) in E end.
      destruct (connect_ok id m m1 eq_refl (G _ _ SI)) as (G1 & _).
      destruct (post_one _ _ _ _ _) as [[h s] l'] eqn:PO. injection E as <- <-. cbn. refine (proj1 (post_one_ok _ _ _ _ _ _ _ _ PO _)).
      intros k x H. destruct (Nat.eq_dec k id) as [->|N]; [rewrite set_sub_same in H; injection H as <-; exact G1|rewrite set_sub_other in H by exact N; now apply (G k)].
    - destruct (existsb _ _); [|discriminate]. injection E as <- <-. exact G.
    - injection E as <- <-. exact G.
    - destruct (pv_event V e) eqn:PE; [|discriminate]. destruct (subs V p id) as [m|] eqn:SI; [|discriminate]. destruct (mstep id m e) as [(m', o)|] eqn:S; [|discriminate].
      injection E as <- <-. cbn. destruct (step_plain _ _ _ _ _ S (G _ _ SI)) as (G1 & _); [intros a b c ->; discriminate|].
      intros k x H. destruct (Nat.eq_dec k id) as [->|N]; [rewrite set_sub_same in H; injection H as <-; exact G1|rewrite set_sub_other in H by exact N; now apply (G k)].
  Qed.
  Lemma pstep_count p e p' l : pstep p e = Some (p', l) -> goods (subs V p) -> (forall id, e <> PSub V id (EStats ref true)) ->
    forall id m, subs V p id = Some m -> exists m', subs V p' id = Some m' /\ nsquash ref m <= nsquash ref m'.
  Proof.
    intros E G NR k m H. assert (SAME : subs V p' = subs V p -> exists m', subs V p' k = Some m' /\ nsquash ref m <= nsquash ref m') by (intros ->; eauto).
    destruct e; cbn [SharedPVModel.pstep] in E.
    - destruct (current V p); [discriminate|]. injection E as <- <-. auto.
    - injection E as <- <-. auto.
    - destruct (current V p); [|discriminate]. destruct (members V p) as [|id ids]; [injection E as <- <-; auto|].
      destruct (post_all _ _ _ _ (id :: ids)) as [[h s] l'] eqn:PA. injection E as <- <-. cbn. destruct (post_all_ok _ _ _ _ _ _ _ _ PA G) as (_ & M & _).
      destruct (M _ _ H) as (m' & ? & _ & ?). eauto.
    - destruct (subs V p id) eqn:SI; [discriminate|]. assert (k <> id) by congruence. destruct (current V p); injection E as <- <-; cbn; rewrite set_sub_other by auto; eauto.
    - destruct (find_conn id (connecting V p)) as [a|]; [|discriminate]. destruct (subs V p id) as [m0|] eqn:SI; [|discriminate].
      destruct (nth_error (heap V p) a) as [v|]; [|discriminate].
      match type of E with context [set_sub V id ?x _] => set (m1 := x) in E end.
      destruct (connect_ok id m0 m1 eq_refl (G _ _ SI)) as (G1 & Q1 & _).
      destruct (post_one _ _ _ _ _) as [[h s] l'] eqn:PO. injection E as <- <-. cbn. apply post_one_ok in PO.
      2:{ intros j x J. destruct (Nat.eq_dec j id) as [->|N]; [rewrite set_sub_same in J; injection J as <-; exact G1|rewrite set_sub_other in J by exact N; now apply (G j)]. }
      destruct PO as (_ & OT & X). rewrite set_sub_same in X. destruct X as (m' & S' & _ & Q & _).
      destruct (Nat.eq_dec k id) as [->|N]; [exists m'; split; [exact S'|]; rewrite SI in H; injection H as <-; lia|]. rewrite OT, set_sub_other by exact N. eauto.
    - destruct (existsb _ _); [|discriminate]. injection E as <- <-. auto.
    - injection E as <- <-. auto.
    - destruct (pv_event V e) eqn:PE; [|discriminate]. destruct (subs V p id) as [m0|] eqn:SI; [|discriminate]. destruct (mstep id m0 e) as [(m', o)|] eqn:S; [|discriminate].
      injection E as <- <-. cbn. destruct (step_plain _ _ _ _ _ S (G _ _ SI)) as (G1 & Q & _); [intros a b c ->; discriminate|].
      destruct (Nat.eq_dec k id) as [->|N]; [rewrite set_sub_same; exists m'; split; [reflexivity|]; rewrite Q; [rewrite SI in H; injection H as <-; lia|intros ->; now apply (NR id)]|].
      rewrite set_sub_other by exact N. eauto.
  Qed.
  Lemma prun_good es : forall p p' l, prun p es = Some (p', l) -> goods (subs V p) -> goods (subs V p').
  Proof.
    induction es as [|e es IH]; intros p p' l R G; [injection R as <- <-; exact G|].
    apply prun_cons in R. destruct R as (p1 & l1 & l' & S & R & ->). exact (IH _ _ _ R (pstep_good _ _ _ _ S G)).
  Qed.
  Lemma prun_count es : forall p p' l, prun p es = Some (p', l) -> goods (subs V p) -> no_resets V es ->
    forall id m, subs V p id = Some m -> exists m', subs V p' id = Some m' /\ nsquash ref m <= nsquash ref m'.
  Proof.
    induction es as [|e es IH]; intros p p' l R G NR id m H; [injection R as <- <-; eauto|].
    apply prun_cons in R. destruct R as (p1 & l1 & l' & S & R & ->).
    destruct (pstep_count _ _ _ _ S G) with (2 := H) as (m1 & H1 & Q1); [intros k ->; apply (NR k); now left|].
    destruct (IH _ _ _ R (pstep_good _ _ _ _ S G)) with (2 := H1) as (m2 & H2 & Q2); [intros k X; apply (NR k); now right|]. exists m2. split; [exact H2|lia].
  Qed.

  Lemma sends_sent h id o : (forall r, In r (sent ref o) -> nth_error h (fst r) = Some (snd r)) -> sends V h id o = map (fun r => LSend V id (snd r)) (sent ref o).
  Proof.
    induction o as [|x o IH]; intro H; [reflexivity|]. destruct x as [| [a v] | | | | | | | |]; cbn in *; auto. specialize (H (a, v) (or_introl eq_refl)) as HH. cbn in HH. rewrite HH, IH; auto.
  Qed.
  Lemma offers_sends k id (l : list ref) : offers_of k (map (fun r => LSend V id (snd r)) l) = [].
  Proof. induction l; cbn; auto. Qed.
  Lemma sends_same id (l : list ref) : sends_of id (map (fun r => LSend V id (snd r)) l) = map snd l.
  Proof. induction l as [|r l IH]; cbn; [reflexivity|]. rewrite Nat.eqb_refl. now f_equal. Qed.
  Lemma sends_other k id (l : list ref) : k <> id -> sends_of k (map (fun r => LSend V id (snd r)) l) = [].
  Proof. intro N. assert (B : id =? k = false) by (apply Nat.eqb_neq; auto). induction l as [|r l IH]; cbn; [reflexivity|]. now rewrite B. Qed.
  Lemma pstep_faithful p e p' l0 l : pstep p e = Some (p', l) -> goods (subs V p) -> calm (subs V p') -> (forall id, e <> PSub V id (EStats ref true)) ->
    faithful (heap V p) (subs V p) l0 -> faithful (heap V p') (subs V p') (l0 ++ l).
  Proof.
    intros E G C NR F. assert (FN : faithful (heap V p) (subs V p) (l0 ++ [])) by now rewrite app_nil_r. destruct e; cbn [SharedPVModel.pstep] in E.
    - destruct (current V p); [discriminate|]. injection E as <- <-. cbn. now apply faithful_grow.
    - injection E as <- <-. exact FN.
    - destruct (current V p); [|discriminate]. destruct (members V p) as [|id ids]; [injection E as <- <-; exact FN|].
      destruct (post_all _ _ _ _ (id :: ids)) as [[h s] l'] eqn:PA. injection E as <- <-. cbn [heap subs] in *.
      destruct (faithful_post_all _ _ _ _ _ _ _ l0 _ PA G C) as (-> & X); auto; [|now apply faithful_grow].
      rewrite nth_error_app2, Nat.sub_diag by lia. reflexivity.
    - destruct (subs V p id) eqn:SI; [discriminate|].
      assert (X : forall h, faithful h (subs V p) (l0 ++ []) -> faithful h (set_sub V id (create ref nack pipe qsize) (subs V p)) (l0 ++ [])).
      { intros h Y k. specialize (Y k). destruct (Nat.eq_dec k id) as [->|N]; [|now rewrite set_sub_other]. rewrite SI in Y. rewrite set_sub_same. destruct Y as (-> & ->). cbn. split; [easy|reflexivity]. }
      destruct (current V p); injection E as <- <-; cbn; apply X; auto. now apply faithful_grow.
    - destruct (find_conn id (connecting V p)) as [a|]; [|discriminate]. destruct (subs V p id) as [m0|] eqn:SI; [|discriminate].
      destruct (nth_error (heap V p) a) as [v|] eqn:HA; [|discriminate].
      match type of E with context [set_sub V id ?x _] => set (m1 := x) in E end.
      destruct (connect_ok id m0 m1 eq_refl (G _ _ SI)) as (G1 & Q1 & _ & T2 & T3).
      destruct (post_one _ _ _ _ _) as [[h s] l'] eqn:PO. injection E as <- <-. cbn in *.
      assert (G' : goods (set_sub V id m1 (subs V p))).
      { intros j x J. destruct (Nat.eq_dec j id) as [->|N]; [rewrite set_sub_same in J; injection J as <-; exact G1|rewrite set_sub_other in J by exact N; now apply (G j)]. }
      assert (QQ : queue ref m1 = queue ref m0).
      { destruct (typed ref m0) eqn:T; [auto|]. rewrite T2 by auto. destruct (G _ _ SI) as ((I0 & _) & _). symmetry. exact (proj1 (i_typed _ _ I0 T)). }
      destruct (faithful_post_one _ _ _ _ _ _ _ l0 _ PO G' C HA) as (-> & X); [|exact X].
      intro k. specialize (F k). destruct (Nat.eq_dec k id) as [->|N]; [|now rewrite set_sub_other]. rewrite set_sub_same. rewrite SI in F. unfold pending in *. rewrite QQ. exact F.
    - destruct (existsb _ _); [|discriminate]. injection E as <- <-. exact FN.
    - injection E as <- <-. exact FN.
    - destruct (pv_event V e) eqn:PE; [|discriminate]. destruct (subs V p id) as [m0|] eqn:SI; [|discriminate]. destruct (mstep id m0 e) as [(m', o)|] eqn:S; [|discriminate].
      injection E as <- <-. cbn in *. destruct (step_plain _ _ _ _ _ S (G _ _ SI)) as (G1 & Q & X); [intros a b c ->; discriminate|].
      pose proof (F id) as FI. rewrite SI in FI. destruct FI as (F1 & F2).
      assert (SO : sends V (heap V p) id o = map (fun r => LSend V id (snd r)) (sent ref o)).
      { apply sends_sent. intros r H. destruct X as [(X & _)|(r0 & X & Y)]; rewrite X in H; [easy|]. destruct H as [->|[]]. apply F1. rewrite Y. now left. }
      rewrite SO. intro k. destruct (Nat.eq_dec k id) as [->|N].
      + rewrite set_sub_same, offers_app, sends_app, offers_sends, sends_same, app_nil_r, <- F2, <- app_assoc. unfold pending. destruct X as [(X & Y)|(r & X & Y)]; rewrite X.
        * rewrite Y. auto.
        * rewrite Y in *. split; [intros r' H; apply F1; now right|]. reflexivity.
      + rewrite set_sub_other by exact N. specialize (F k). rewrite offers_app, sends_app, offers_sends, (sends_other _ _ _ N), !app_nil_r. exact F.
  Qed.
  Lemma prun_faithful es : forall p p' l0 l, prun p es = Some (p', l) -> goods (subs V p) -> calm (subs V p') -> no_resets V es ->
    faithful (heap V p) (subs V p) l0 -> faithful (heap V p') (subs V p') (l0 ++ l).
  Proof.
    induction es as [|e es IH]; intros p p' l0 l R G C NR F; [injection R as <- <-; now rewrite app_nil_r|].
    apply prun_cons in R. destruct R as (p1 & l1 & l' & S & R & ->). rewrite app_assoc.
    assert (NR' : no_resets V es) by (intros k X; apply (NR k); now right).
    pose proof (pstep_good _ _ _ _ S G) as G1.
    apply (IH _ _ _ _ R G1 C NR'). apply (pstep_faithful _ _ _ _ _ S G); auto; [|intros k ->; apply (NR k); now left].
    intros k m H. destruct (prun_count _ _ _ _ R G1 NR' _ _ H) as (m' & H' & Q). specialize (C _ _ H'). lia.
  Qed.

  (** ** Who is where *)
  Definition cnt (k : nat) (l : list nat) : nat := count_occ Nat.eq_dec l k.
  Definition tidy (p : pv V) : Prop :=
    forall k, cnt k (waiting V p) + cnt k (map fst (connecting V p)) + cnt k (connected V p) + cnt k (members V p) <=
      (match subs V p k with Some _ => 1 | None => 0 end) /\
    (forall m, subs V p k = Some m -> 1 <= cnt k (waiting V p) + cnt k (map fst (connecting V p)) -> typed ref m = false).

  Lemma cnt_app k a b : cnt k (a ++ b) = cnt k a + cnt k b.
  Proof. apply count_occ_app. Qed.
  Lemma cnt_cons k x l : cnt k (x :: l) = (if Nat.eq_dec x k then 1 else 0) + cnt k l.
  Proof. unfold cnt. cbn. destruct (Nat.eq_dec x k); reflexivity. Qed.
  Lemma cnt_drop k id l : cnt k (drop id l) = if Nat.eq_dec id k then 0 else cnt k l.
  Proof.
    induction l as [|x l IH]; [now destruct (Nat.eq_dec id k)|]. cbn [drop filter]. fold (drop id l).
    destruct (Nat.eqb_spec x id) as [->|N]; cbn [negb].
    - rewrite IH, cnt_cons. destruct (Nat.eq_dec id k); reflexivity.
    - rewrite !cnt_cons, IH. destruct (Nat.eq_dec id k); destruct (Nat.eq_dec x k); subst; try reflexivity. congruence.
  Qed.
  Lemma cnt_drop_conn k id l : cnt k (map fst (drop_conn id l)) = if Nat.eq_dec id k then 0 else cnt k (map fst l).
  Proof.
    assert (E : map fst (drop_conn id l) = drop id (map fst l)).
    { induction l as [|(x, a) l IH]; [reflexivity|]. cbn. destruct (x =? id); cbn; unfold drop_conn, drop in IH; now rewrite IH. }
    rewrite E. apply cnt_drop.
  Qed.
  Lemma cnt_split k pos l : cnt k (firstn pos l) + cnt k (skipn pos l) = cnt k l.
  Proof. rewrite <- cnt_app, firstn_skipn. reflexivity. Qed.
  Lemma cnt_in k l : In k l -> 1 <= cnt k l.
  Proof. intro H. apply (count_occ_In Nat.eq_dec) in H. unfold cnt. lia. Qed.
  Lemma in_cnt k l : 1 <= cnt k l -> In k l.
  Proof. intro H. apply (count_occ_In Nat.eq_dec). unfold cnt in H. lia. Qed.
  Lemma find_conn_in id l a : find_conn id l = Some a -> 1 <= cnt id (map fst l).
  Proof.
    unfold find_conn. destruct (find _ l) as [(k, b)|] eqn:F; [|discriminate]. intros _. apply find_some in F. destruct F as (F & E). cbn in E. apply Nat.eqb_eq in E. subst. apply cnt_in.
    apply in_map_iff. exists (id, b). auto.
  Qed.
  Lemma find_conn_drop id k l : k <> id -> find_conn id (drop_conn k l) = find_conn id l.
  Proof.
    intro N. unfold find_conn. induction l as [|(x, a) l IH]; [reflexivity|]. cbn. destruct (Nat.eqb_spec x k) as [->|K]; cbn.
    - apply Nat.eqb_neq in N. rewrite N. exact IH.
    - destruct (x =? id); [reflexivity|exact IH].
  Qed.
  Lemma existsb_in id l : existsb (Nat.eqb id) l = true -> 1 <= cnt id l.
  Proof. intro H. apply existsb_exists in H. destruct H as (x & H & E). apply Nat.eqb_eq in E. subst. now apply cnt_in. Qed.

  (** connecting: nothing is merged *)
  Lemma pconnect_ok p id p' l : pstep p (PConnect V id) = Some (p', l) -> goods (subs V p) -> tidy p ->
    exists a v m m', find_conn id (connecting V p) = Some a /\ nth_error (heap V p) a = Some v /\ subs V p id = Some m /\ subs V p' id = Some m' /\
      (forall k, k <> id -> subs V p' k = subs V p k) /\ heap V p' = heap V p /\ current V p' = current V p /\
      members V p' = members V p /\ waiting V p' = waiting V p /\ connecting V p' = drop_conn id (connecting V p) /\ connected V p' = id :: connected V p /\
      l = (if typed ref m' then [LOffer V id v] else []).
  Proof.
    cbn [SharedPVModel.pstep]. intros E G T. destruct (find_conn id (connecting V p)) as [a|] eqn:FC; [|discriminate]. destruct (subs V p id) as [m0|] eqn:SI; [|discriminate].
    destruct (nth_error (heap V p) a) as [v|] eqn:HA; [|discriminate].
    match type of E with context [set_sub V id ?x _] => set (m1 := x) in E end.
    destruct (connect_ok id m0 m1 eq_refl (G _ _ SI)) as (G1 & Q1 & _ & T2 & _).
    assert (TF : typed ref m0 = false) by (destruct (T id) as (_ & X); apply X; [exact SI|]; apply find_conn_in in FC; lia). specialize (T2 TF). clearbody m1.
    destruct (post_one _ _ _ _ _) as [[h s] l'] eqn:PO. injection E as <- <-. apply post_one_ok in PO.
    2:{ intros j x J. destruct (Nat.eq_dec j id) as [->|N]; [rewrite set_sub_same in J; injection J as <-; exact G1|rewrite set_sub_other in J by exact N; now apply (G j)]. }
    destruct PO as (_ & OT & X). rewrite set_sub_same in X. destruct X as (m' & S' & TT & Q & X).
    exists a, v, m0, m'. cbn. repeat split; auto.
    - intros k K. now rewrite OT, set_sub_other.
    - destruct (typed ref m1); [|apply X]. destruct X as (_ & -> & X). unfold merge_back. destruct X as [(_ & _ & X)|[(_ & _ & X)|(_ & _ & _ & X)]]; [| |congruence]; now rewrite X, Nat.eqb_refl.
    - rewrite TT. destruct (typed ref m1); apply X.
  Qed.

  Lemma pstep_tidy p e p' l : pstep p e = Some (p', l) -> goods (subs V p) -> tidy p -> tidy p'.
  Proof.
    intros E G T k. destruct (T k) as (T1 & T2). destruct e.
    - cbn [SharedPVModel.pstep] in E. destruct (current V p); [discriminate|]. injection E as <- <-. cbn [subs waiting connecting connected members].
      rewrite map_app, map_map, map_id, cnt_app. cbn [fst]. change (cnt k []) with 0. split; [lia|]. intros m H X. apply (T2 m H). lia.
    - injection E as <- <-. cbn [subs waiting connecting connected members]. change (cnt k []) with 0. split; [lia|exact T2].
    - cbn [SharedPVModel.pstep] in E. destruct (current V p); [|discriminate].
      assert (X : exists h s l', Some (Build_pv V (Some (assign v0 v)) h s (members V p) (waiting V p) (connecting V p) (connected V p), l') = Some (p', l) /\
        (forall j x, subs V p j = Some x -> exists x', s j = Some x' /\ typed ref x' = typed ref x) /\ (forall j, subs V p j = None -> s j = None)).
      { destruct (members V p) as [|id ids]; [exists (heap V p), (subs V p), []; repeat split; eauto|]. destruct (post_all _ _ _ _ (id :: ids)) as [[h s] l'] eqn:PA. exists h, s, l'. split; [exact E|].
        destruct (post_all_ok _ _ _ _ _ _ _ _ PA G) as (_ & M & N & _). split; [|exact N]. intros j x J. destruct (M _ _ J) as (x' & ? & ? & _). eauto. }
      clear E. destruct X as (h & s & l' & E & M & N). injection E as <- <-. cbn [subs waiting connecting connected members]. destruct (subs V p k) as [m0|] eqn:SK.
      + destruct (M _ _ SK) as (x' & -> & TX). split; [exact T1|]. intros m H. injection H as <-. intro X. rewrite TX. exact (T2 m0 eq_refl X).
      + rewrite (N _ SK). split; [exact T1|discriminate].
    - cbn [SharedPVModel.pstep] in E. destruct (subs V p id) eqn:SI; [discriminate|].
      destruct (current V p); injection E as <- <-; cbn [subs waiting connecting connected members map fst]; rewrite ?cnt_app, ?cnt_cons; change (cnt k []) with 0;
        (destruct (Nat.eq_dec id k) as [->|N]; [rewrite set_sub_same, SI in *; split; [lia|]; intros m H _; injection H as <-; reflexivity|rewrite set_sub_other by auto; split; [lia|]; intros m H X; apply (T2 m H); lia]).
    - destruct (pconnect_ok _ _ _ _ E G T) as (a & v & m & m' & FC & HA & SI & S' & OT & _ & _ & -> & -> & -> & -> & _). rewrite cnt_drop_conn, cnt_cons. apply find_conn_in in FC.
      destruct (Nat.eq_dec id k) as [->|N].
      + rewrite S'. rewrite SI in T1. split; [lia|]. lia.
      + rewrite OT by auto. split; [lia|exact T2].
    - cbn [SharedPVModel.pstep] in E. destruct (existsb _ _) eqn:EX; [|discriminate]. injection E as <- <-. cbn [subs waiting connecting connected members]. apply existsb_in in EX.
      rewrite cnt_app, cnt_cons, cnt_drop. pose proof (cnt_split k pos (members V p)). destruct (Nat.eq_dec id k) as [->|N]; (split; [lia|exact T2]).
    - injection E as <- <-. cbn [subs waiting connecting connected members]. rewrite !cnt_drop. destruct (Nat.eq_dec id k) as [->|N]; [|auto]. split; [lia|]. intros m H X. apply (T2 m H). lia.
    - cbn [SharedPVModel.pstep] in E. destruct (pv_event V e) eqn:PE; [|discriminate]. destruct (subs V p id) as [m0|] eqn:SI; [|discriminate]. destruct (mstep id m0 e) as [(m', o)|] eqn:S; [|discriminate].
      injection E as <- <-. cbn [subs waiting connecting connected members]. destruct (Nat.eq_dec id k) as [->|N]; [|rewrite set_sub_other by auto; auto].
      rewrite set_sub_same. rewrite SI in T1. split; [exact T1|]. intros m H X. injection H as <-. rewrite (typed_step _ _ _ _ _ S PE). exact (T2 m0 SI X).
  Qed.
  Lemma prun_tidy es : forall p p' l, prun p es = Some (p', l) -> goods (subs V p) -> tidy p -> tidy p'.
  Proof.
    induction es as [|e es IH]; intros p p' l R G T; [injection R as <- <-; exact T|].
    apply prun_cons in R. destruct R as (p1 & l1 & l' & S & R & ->). exact (IH _ _ _ R (pstep_good _ _ _ _ S G) (pstep_tidy _ _ _ _ S G T)).
  Qed.
  Lemma new_good : goods (subs V (new_pv V)).
  Proof. intros k m H. discriminate. Qed.
  Lemma new_tidy : tidy (new_pv V).
  Proof. intro k. cbn. split; [lia|discriminate]. Qed.

  Lemma post_all_offers a v ids id m : forall h s h' s' l, post_all a v h s ids = (h', s', l) -> goods s -> s id = Some m ->
    cnt id ids <= 1 -> 1 <= cnt id ids -> typed ref m = true -> offers_of id l = [v].
  Proof.
    induction ids as [|k ids IH]; intros h s h' s' l E G SI C1 C2 T; [cbn in C2; lia|].
    cbn in E. destruct (post_one a v h s k) as [[h1 s1] l1] eqn:E1. destruct (post_all a v h1 s1 ids) as [[h2 s2] l2] eqn:E2. injection E as <- <- <-.
    destruct (post_one_ok _ _ _ _ _ _ _ _ E1 G) as (G1 & OT & X). rewrite offers_app. rewrite cnt_cons in *. destruct (Nat.eq_dec k id) as [->|N].
    - rewrite SI in X. destruct X as (m' & _ & _ & _ & X). rewrite T in X. destruct X as (-> & _). destruct (post_all_ok _ _ _ _ _ _ _ _ E2 G1) as (_ & _ & _ & O & _).
      destruct (O id) as (_ & ->); [intro H; apply cnt_in in H; lia|]. cbn. now rewrite Nat.eqb_refl.
    - replace (offers_of id l1) with (@nil V); [refine (IH _ _ _ _ _ E2 G1 _ C1 C2 T); rewrite OT; auto|].
      assert (B : k =? id = false) by (apply Nat.eqb_neq; auto).
      destruct (s k) as [m0|]; [|destruct X as (-> & _); reflexivity]. destruct X as (? & _ & _ & _ & X). destruct (typed ref m0); destruct X as (-> & _); cbn; now rewrite ?B.
  Qed.
  Lemma offers_none h k id o : offers_of k (sends V h id o) = [].
  Proof. induction o as [|x o IH]; [reflexivity|]. destruct x as [| [a v] | | | | | | | |]; cbn; auto. destruct (nth_error h a); cbn; auto. Qed.

  (** ** A new subscriber *)
  Definition coming (id : nat) (x : V) (p : pv V) (l : list (log V)) : Prop :=
    (exists a, find_conn id (connecting V p) = Some a /\ nth_error (heap V p) a = Some x /\ offers_of id l = []) \/
    (1 <= cnt id (connected V p) /\ forall m, subs V p id = Some m -> typed ref m = true -> offers_of id l = [x]) \/
    (subs V p id <> None /\ cnt id (waiting V p) + cnt id (map fst (connecting V p)) + cnt id (connected V p) = 0).
  Definition quiet_event (e : pevent V) : Prop := match e with PPost _ _ | PClose _ => False | _ => True end.

  Lemma pstep_coming id x p e p' l0 l : pstep p e = Some (p', l) -> goods (subs V p) -> tidy p -> current V p <> None -> quiet_event e ->
    coming id x p l0 -> current V p' <> None /\ coming id x p' (l0 ++ l).
  Proof.
    intros E G T CU QE C. destruct e; try destruct QE.
    - cbn in E. destruct (current V p); [discriminate|now destruct CU].
    - cbn [SharedPVModel.pstep] in E. destruct (subs V p id0) eqn:SI; [discriminate|]. destruct (current V p) as [c|] eqn:CC; [|now destruct CU]. injection E as <- <-. cbn [current]. split; [discriminate|]. rewrite app_nil_r.
      assert (N : id0 <> id).
      { intros ->. destruct (T id) as (T1 & _). rewrite SI in T1. destruct C as [(a & C & _)|[(C & _)|(C & _)]]; [apply find_conn_in in C; lia|lia|congruence]. }
      unfold coming. cbn [subs waiting connecting connected members heap]. destruct C as [(a & C1 & C2 & C3)|[(C1 & C2)|(C1 & C2)]].
      + left. exists a. unfold find_conn. cbn [find fst]. apply Nat.eqb_neq in N. rewrite N. split; [exact C1|]. split; [|exact C3]. rewrite nth_error_app1; [exact C2|]. apply nth_error_Some. congruence.
      + right; left. split; [exact C1|]. rewrite set_sub_other by auto. exact C2.
      + right; right. rewrite set_sub_other by auto. split; [exact C1|]. cbn [map fst]. rewrite cnt_cons. destruct (Nat.eq_dec id0 id); [congruence|lia].
    - destruct (pconnect_ok _ _ _ _ E G T) as (a & v & m & m' & FC & HA & SI & S' & OT & HP & CP & MP & WP & CNP & CDP & ->). rewrite CP. split; [exact CU|].
      unfold coming. rewrite HP, WP, CNP, CDP. rewrite cnt_cons, cnt_drop_conn. destruct (Nat.eq_dec id0 id) as [->|N].
      + right; left. split; [lia|]. intros m2 H TT. rewrite S' in H. injection H as <-. rewrite TT, offers_app. cbn [SharedPVSpec.offers_of]. rewrite Nat.eqb_refl.
        destruct (T id) as (T1 & _). rewrite SI in T1. pose proof (find_conn_in _ _ _ FC). destruct C as [(b & C1 & C2 & C3)|[(C1 & C2)|(C1 & C2)]]; [|lia|lia].
        rewrite C3. cbn. congruence.
      + assert (L : offers_of id (if typed ref m' then [LOffer V id0 v] else []) = []).
        { destruct (typed ref m'); [|reflexivity]. cbn. apply Nat.eqb_neq in N. now rewrite N. }
        rewrite offers_app, L, app_nil_r, find_conn_drop, (OT id) by auto. destruct C as [C|[C|C]]; auto.
    - cbn [SharedPVModel.pstep] in E. destruct (existsb _ _) eqn:EX; [|discriminate]. injection E as <- <-. cbn [current]. split; [exact CU|]. rewrite app_nil_r. apply existsb_in in EX.
      unfold coming. cbn [subs waiting connecting connected members heap]. rewrite cnt_drop. destruct (Nat.eq_dec id0 id) as [->|N]; [|exact C].
      destruct (T id) as (T1 & _). right; right. destruct C as [(a & C1 & _)|[(C1 & C2)|(C1 & C2)]].
      + apply find_conn_in in C1. destruct (subs V p id); lia.
      + destruct (subs V p id); [|lia]. split; [discriminate|lia].
      + lia.
    - injection E as <- <-. cbn [current]. split; [exact CU|]. rewrite app_nil_r. unfold coming. cbn [subs waiting connecting connected members heap]. rewrite cnt_drop.
      destruct C as [C|[C|(C1 & C2)]]; auto. right; right. split; [exact C1|]. destruct (Nat.eq_dec id0 id); lia.
    - cbn [SharedPVModel.pstep] in E. destruct (pv_event V e) eqn:PE; [|discriminate]. destruct (subs V p id0) as [m0|] eqn:SI; [|discriminate]. destruct (mstep id0 m0 e) as [(m', o)|] eqn:S; [|discriminate].
      injection E as <- <-. cbn [current]. split; [exact CU|]. unfold coming. cbn [subs waiting connecting connected members heap]. rewrite offers_app, offers_none, app_nil_r.
      destruct C as [C|[(C1 & C2)|(C1 & C2)]]; auto.
      + right; left. split; [exact C1|]. intros m H TT. destruct (Nat.eq_dec id id0) as [->|N]; [|rewrite set_sub_other in H by exact N; eauto].
        rewrite set_sub_same in H. injection H as <-. apply (C2 _ SI). now rewrite <- (typed_step _ _ _ _ _ S PE).
      + right; right. split; [|exact C2]. destruct (Nat.eq_dec id id0) as [->|N]; [rewrite set_sub_same; discriminate|now rewrite set_sub_other].
  Qed.
  Lemma prun_coming id x es : forall p p' l0 l, prun p es = Some (p', l) -> goods (subs V p) -> tidy p -> current V p <> None -> Forall quiet_event es ->
    coming id x p l0 -> coming id x p' (l0 ++ l).
  Proof.
    induction es as [|e es IH]; intros p p' l0 l R G T CU Q C; [injection R as <- <-; now rewrite app_nil_r|].
    apply prun_cons in R. destruct R as (p1 & l1 & l' & S & R & ->). inversion_clear Q as [|? ? Q1 Q2]. destruct (pstep_coming _ _ _ _ _ _ _ S G T CU Q1 C) as (CU1 & C1).
    rewrite app_assoc. exact (IH _ _ _ _ R (pstep_good _ _ _ _ S G) (pstep_tidy _ _ _ _ S G T) CU1 Q2 C1).
  Qed.

  Definition belongs (id : nat) (xs : list V) (p : pv V) (l : list (log V)) : Prop :=
    1 <= cnt id (members V p) /\ forall m, subs V p id = Some m -> typed ref m = true -> offers_of id l = xs.
  Definition stays_event (id : nat) (e : pevent V) : Prop := match e with PGone _ k => k <> id | PClose _ => False | _ => True end.

  Lemma pstep_belongs id xs p e p' l0 l : pstep p e = Some (p', l) -> goods (subs V p) -> tidy p -> stays_event id e ->
    belongs id xs p l0 -> belongs id (xs ++ map clone (posts V [e])) p' (l0 ++ l).
  Proof.
    intros E G T SE (B1 & B2). unfold belongs. destruct (T id) as (T1 & _). assert (SS : exists m, subs V p id = Some m) by (destruct (subs V p id); [eauto|lia]). destruct SS as (mi & SS).
    destruct e; cbn [posts map]; rewrite ?app_nil_r.
    - cbn in E. destruct (current V p); [discriminate|]. injection E as <- <-. cbn. rewrite ?app_nil_r. auto.
    - destruct SE.
    - cbn [SharedPVModel.pstep] in E. destruct (current V p); [|discriminate]. destruct (members V p) as [|k ids] eqn:MM; [cbn in B1; lia|].
      destruct (post_all _ _ _ _ (k :: ids)) as [[h s] l'] eqn:PA. injection E as <- <-. cbn [subs members]. split; [exact B1|]. intros m H TT.
      destruct (post_all_ok _ _ _ _ _ _ _ _ PA G) as (_ & M & _). destruct (M _ _ SS) as (m' & S' & TE & _). assert (m' = m) by congruence. subst m'.
      rewrite SS in T1. rewrite TT in TE. rewrite offers_app, (B2 _ SS) by auto. f_equal. apply (post_all_offers _ _ _ _ _ _ _ _ _ _ PA G SS); auto. lia.
    - cbn [SharedPVModel.pstep] in E. destruct (subs V p id0) eqn:SI; [discriminate|]. assert (N : id <> id0) by congruence.
      destruct (current V p); injection E as <- <-; cbn [subs members]; rewrite app_nil_r, set_sub_other by exact N; auto.
    - destruct (pconnect_ok _ _ _ _ E G T) as (a & v & m & m' & FC & HA & SI & S' & OT & HP & CP & MP & WP & CNP & CDP & ->).
      assert (N : id0 <> id) by (intros ->; apply find_conn_in in FC; rewrite SS in T1; lia). rewrite MP, OT by auto. split; [exact B1|]. intros m2 H TT. rewrite offers_app.
      replace (offers_of id (if typed ref m' then [LOffer V id0 v] else [])) with (@nil V); [rewrite app_nil_r; eauto|]. destruct (typed ref m'); [|reflexivity]. cbn. apply Nat.eqb_neq in N. now rewrite N.
    - cbn [SharedPVModel.pstep] in E. destruct (existsb _ _) eqn:EX; [|discriminate]. injection E as <- <-. cbn [subs members]. rewrite app_nil_r. split; [|exact B2].
      rewrite cnt_app, cnt_cons. pose proof (cnt_split id pos (members V p)). lia.
    - injection E as <- <-. cbn [subs members]. rewrite app_nil_r, cnt_drop. cbn in SE. destruct (Nat.eq_dec id0 id); [congruence|auto].
    - cbn [SharedPVModel.pstep] in E. destruct (pv_event V e) eqn:PE; [|discriminate]. destruct (subs V p id0) as [m0|] eqn:SI; [|discriminate]. destruct (mstep id0 m0 e) as [(m', o)|] eqn:S; [|discriminate].
      injection E as <- <-. cbn [subs members]. split; [exact B1|]. rewrite offers_app, offers_none, app_nil_r. intros m H TT. destruct (Nat.eq_dec id id0) as [->|N]; [|rewrite set_sub_other in H by exact N; eauto].
      rewrite set_sub_same in H. injection H as <-. apply (B2 _ SI). now rewrite <- (typed_step _ _ _ _ _ S PE).
  Qed.
  Lemma posts_cons e es : posts V (e :: es) = posts V [e] ++ posts V es.
  Proof. destruct e; reflexivity. Qed.
  Lemma prun_belongs id es : forall xs p p' l0 l, prun p es = Some (p', l) -> goods (subs V p) -> tidy p -> Forall (stays_event id) es ->
    belongs id xs p l0 -> belongs id (xs ++ map clone (posts V es)) p' (l0 ++ l).
  Proof.
    induction es as [|e es IH]; intros xs p p' l0 l R G T Q B; [injection R as <- <-; cbn; now rewrite !app_nil_r|].
    apply prun_cons in R. destruct R as (p1 & l1 & l' & S & R & ->). inversion_clear Q as [|? ? Q1 Q2]. pose proof (pstep_belongs _ _ _ _ _ _ _ S G T Q1 B) as B1.
    rewrite (posts_cons e es), map_app, !app_assoc. exact (IH _ _ _ _ _ R (pstep_good _ _ _ _ S G) (pstep_tidy _ _ _ _ S G T) Q2 B1).
  Qed.
  Lemma enter_belongs id pos x p p' l0 l : pstep p (PEnter V id pos) = Some (p', l) -> tidy p -> coming id x p l0 -> belongs id [x] p' (l0 ++ l).
  Proof.
    cbn. destruct (existsb _ _) eqn:EX; [|discriminate]. intros E T C. injection E as <- <-. apply existsb_in in EX. unfold belongs. cbn [subs members]. rewrite cnt_app, cnt_cons, app_nil_r.
    destruct (Nat.eq_dec id id); [|congruence]. split; [lia|]. destruct (T id) as (T1 & _). destruct C as [(a & C & _)|[(_ & C)|(C1 & C2)]]; [|exact C|lia].
    apply find_conn_in in C. destruct (subs V p id); lia.
  Qed.

  (** nothing is done for a subscription not made *)
  Lemma pstep_unknown p e p' l id : pstep p e = Some (p', l) -> goods (subs V p) -> subs V p' id = None -> subs V p id = None /\ offers_of id l = [] /\ sends_of id l = [].
  Proof.
    intros E G N. destruct e; cbn [SharedPVModel.pstep] in E.
    - destruct (current V p); [discriminate|]. injection E as <- <-. auto.
    - injection E as <- <-. auto.
    - destruct (current V p); [|discriminate]. destruct (members V p) as [|k ids]; [injection E as <- <-; auto|].
      destruct (post_all _ _ _ _ (k :: ids)) as [[h s] l'] eqn:PA. injection E as <- <-. cbn in N. destruct (post_all_ok _ _ _ _ _ _ _ _ PA G) as (_ & M & _ & _ & SN).
      assert (SI : subs V p id = None) by (destruct (subs V p id) as [m|] eqn:SI; [destruct (M _ _ SI) as (? & ? & _); congruence|reflexivity]). split; [exact SI|]. split; [|apply SN].
      clear - PA SI. revert PA. generalize (k :: ids) (subs V p) (heap V p ++ [clone v]) (length (heap V p)) h s l' SI. clear.
      induction l as [|k ids IH]; intros s h a h' s' l' SI E; [injection E as <- <- <-; reflexivity|].
      cbn in E. destruct (post_one a (clone v) h s k) as [[h1 s1] l1] eqn:E1. destruct (post_all a (clone v) h1 s1 ids) as [[h2 s2] l2] eqn:E2. injection E as <- <- <-.
      unfold SharedPVModel.post_one in E1. destruct (s k) as [m|] eqn:SK; [|injection E1 as <- <- <-; exact (IH _ _ _ _ _ _ SI E2)].
      assert (NK : id <> k) by congruence. destruct (step _ _ _ m _) as [(m', o)|]; injection E1 as <- <- <-; [|exact (IH _ _ _ _ _ _ SI E2)].
      cbn. assert (B : k =? id = false) by (apply Nat.eqb_neq; auto). rewrite B. refine (IH _ _ _ _ _ _ _ E2). now rewrite set_sub_other.
    - destruct (subs V p id0) eqn:SI; [discriminate|]. destruct (current V p); injection E as <- <-; cbn in N; (destruct (Nat.eq_dec id id0) as [->|NE]; [auto|rewrite set_sub_other in N by exact NE; auto]).
    - destruct (find_conn id0 (connecting V p)) as [a|]; [|discriminate]. destruct (subs V p id0) as [m0|] eqn:SI; [|discriminate].
      destruct (nth_error (heap V p) a) as [v|] eqn:HA; [|discriminate].
      match type of E with context [set_sub V id0 ?x _] => set (m1 := x) in E end. clearbody m1. unfold SharedPVModel.post_one in E. rewrite set_sub_same in E.
      destruct (step _ _ _ m1 _) as [(m', o)|]; injection E as <- <-; cbn in N; (destruct (Nat.eq_dec id id0) as [->|NE]; [rewrite ?set_sub_same in N; discriminate|rewrite !set_sub_other in N by exact NE]); [|auto].
      cbn. assert (B : id0 =? id = false) by (apply Nat.eqb_neq; auto). rewrite B. auto.
    - destruct (existsb _ _); [|discriminate]. injection E as <- <-. auto.
    - injection E as <- <-. auto.
    - destruct (pv_event V e); [|discriminate]. destruct (subs V p id0) as [m0|] eqn:SI; [|discriminate]. destruct (mstep id0 m0 e) as [(m2, o)|]; [|discriminate]. injection E as <- <-. cbn in N.
      destruct (Nat.eq_dec id id0) as [->|NE]; [rewrite set_sub_same in N; discriminate|rewrite set_sub_other in N by exact NE]. split; [exact N|]. split; [apply offers_none|].
      assert (B : id0 =? id = false) by (apply Nat.eqb_neq; auto). induction o as [|x o IH]; [reflexivity|]. destruct x as [| [a v] | | | | | | | |]; cbn; auto. destruct (nth_error (heap V p) a); cbn; rewrite ?B; auto.
  Qed.
  Lemma prun_unknown id es : forall p p' l, prun p es = Some (p', l) -> goods (subs V p) -> subs V p' id = None -> subs V p id = None /\ offers_of id l = [] /\ sends_of id l = [].
  Proof.
    induction es as [|e es IH]; intros p p' l R G N; [injection R as <- <-; auto|].
    apply prun_cons in R. destruct R as (p1 & l1 & l' & S & R & ->). destruct (IH _ _ _ R (pstep_good _ _ _ _ S G) N) as (N1 & O1 & S1).
    destruct (pstep_unknown _ _ _ _ _ S G N1) as (N2 & O2 & S2). rewrite offers_app, sends_app, O1, O2, S1, S2. auto.
  Qed.

  (** ** Convergence, whatever the other subscribers do *)
  Section View.
    Variable T : Type.
    Variable look : V -> option T.   (* one field *)
    Variable id : nat.
    Hypothesis look_assign : forall a b, look (assign a b) = match look b with Some x => Some x | None => look a end.
    Hypothesis look_clone : forall a, look (clone a) = look a.
    Hypothesis look_wants : forall v, wants id v = false -> look v = None.

    Definition over (acc o : option T) : option T := match o with Some x => Some x | None => acc end.
    Definition newest (l : list (option T)) : option T := fold_left over l None.
    Definition at_addr (h : list V) (r : ref) : option T := match nth_error h (fst r) with Some v => look v | None => None end.

    Lemma newest_snoc l o : newest (l ++ [o]) = over (newest l) o.
    Proof. unfold newest. now rewrite fold_left_app. Qed.
    Lemma fold_over l : forall acc, fold_left over l acc = over acc (newest l).
    Proof.
      unfold newest. induction l as [|o l IH]; intro acc; [reflexivity|]. cbn. rewrite IH, (IH (over None o)). destruct o, (fold_left over l None); reflexivity.
    Qed.
    Lemma newest_app a b : newest (a ++ b) = over (newest a) (newest b).
    Proof. unfold newest at 1. rewrite fold_left_app. apply fold_over. Qed.
    Lemma latest_newest us : latest V look us = newest (map look us).
    Proof.
      unfold latest, newest. generalize (@None T). induction us as [|u us IH]; intro acc; [reflexivity|]. cbn. rewrite IH. reflexivity.
    Qed.

    (** every cell is as before or has the new value of the field *)
    Definition hrel (o : option T) (h h' : list V) : Prop :=
      forall i, match nth_error h i, nth_error h' i with
      | Some u, Some u' => look u' = look u \/ (look u' = o /\ o <> None)
      | None, None => True
      | _, _ => False
      end.
    Lemma hrel_refl o h : hrel o h h.
    Proof. intro i. destruct (nth_error h i); auto. Qed.
    Lemma hrel_trans o a b c : hrel o a b -> hrel o b c -> hrel o a c.
    Proof.
      intros A B i. specialize (A i). specialize (B i). destruct (nth_error a i), (nth_error b i), (nth_error c i); try tauto.
      destruct B as [->|B]; [exact A|auto].
    Qed.
    Lemma nth_set_at (i j : nat) (x : V) (h : list V) : nth_error (set_at i x h) j = if i =? j then match nth_error h j with Some _ => Some x | None => None end else nth_error h j.
    Proof.
      revert i j. induction h as [|u h IH]; intros i j.
      - destruct i as [|i], j as [|j]; cbn; try reflexivity. destruct (i =? j); reflexivity.
      - destruct i, j; cbn; try reflexivity. apply IH.
    Qed.
    Lemma merge_back_hrel m m' a h y : nth_error h a = Some y -> hrel (look y) h (merge_back V assign m m' a h).
    Proof.
      intro A. unfold merge_back. destruct (_ =? _); [apply hrel_refl|]. destruct (lastn _) as [(q, [(b, w)|])|]; try apply hrel_refl.
      destruct (nth_error h b) as [x|] eqn:B; [|apply hrel_refl]. rewrite A. intro i. rewrite nth_set_at. destruct (Nat.eqb_spec b i) as [<-|N].
      - rewrite B, look_assign. destruct (look y); [right; split; congruence|now left].
      - destruct (nth_error h i); auto.
    Qed.
    Lemma hrel_cell o h h' a y : hrel o h h' -> nth_error h a = Some y -> look y = o -> exists y', nth_error h' a = Some y' /\ look y' = o.
    Proof. intros R A L. specialize (R a). rewrite A in R. destruct (nth_error h' a) as [y'|]; [|destruct R]. exists y'. split; [reflexivity|]. destruct R as [R|(R & _)]; congruence. Qed.
    Lemma hrel_none h h' q : hrel None h h' -> map (at_addr h') q = map (at_addr h) q.
    Proof.
      intro R. apply map_ext. intro r. unfold at_addr. specialize (R (fst r)). destruct (nth_error h (fst r)), (nth_error h' (fst r)); tauto.
    Qed.
    Lemma hrel_last o h h' r : hrel o h h' -> at_addr h r = o -> at_addr h' r = o.
    Proof.
      intros R A. unfold at_addr in *. specialize (R (fst r)). destruct (nth_error h (fst r)), (nth_error h' (fst r)); try tauto. destruct R as [R|(R & _)]; congruence.
    Qed.

    Definition known (pre : list V) (h : list V) (m : msub) : option T := newest (map look pre ++ map (at_addr h) (pending ref m)).
    (** the newest value is the new one, or it was not changed *)
    Lemma known_hrel o pre h h' m : hrel o h h' -> (o <> None -> exists q r, pending ref m = q ++ [r] /\ at_addr h r = o) -> known pre h' m = known pre h m.
    Proof.
      intros R L. unfold known. destruct o as [x|].
      - destruct L as (q & r & -> & A); [discriminate|]. rewrite !map_app. cbn [map]. rewrite (hrel_last _ _ _ _ R A), A, !app_assoc, !newest_snoc. reflexivity.
      - now rewrite (hrel_none _ _ _ R).
    Qed.

    Lemma good_last m : good m -> queue ref m <> [] -> exists q b, queue ref m = q ++ [Some b] /\ pending ref m = pending_of ref q ++ [b].
    Proof.
      intros ((I0 & _) & FI) NE. destruct (i_queue _ _ I0) as (us & [X|(X & _)]); [|congruence]. destruct us as [|u us _] using rev_ind; [rewrite X in NE; now destruct NE|].
      rewrite map_app in X. exists (map Some us), u. split; [exact X|]. unfold pending. rewrite X, pending_app. reflexivity.
    Qed.
    Definition valid (h : list V) (m : msub) : Prop := forall r, In r (pending ref m) -> nth_error h (fst r) <> None.
    Lemma valid_hrel o h h' m : hrel o h h' -> valid h m -> valid h' m.
    Proof. intros R A r H. specialize (A r H). specialize (R (fst r)). destruct (nth_error h (fst r)); [|congruence]. destruct (nth_error h' (fst r)); [discriminate|destruct R]. Qed.
    (** one post: the newest value is that posted, if it has the field *)
    Lemma post_one_known a v h s h' s' l m m' y : post_one a v h s id = (h', s', l) -> goods s -> s id = Some m -> typed ref m = true -> s' id = Some m' ->
      nth_error h a = Some y -> look y = look v -> valid h m ->
      valid h' m' /\ hrel (look v) h h' /\ (forall pre, known pre h' m' = over (known pre h m) (look v)) /\
      (look v <> None -> exists q r, pending ref m' = q ++ [r] /\ at_addr h' r = look v).
    Proof.
      intros E G SI TT SI' A L VA. destruct (post_one_ok _ _ _ _ _ _ _ _ E G) as (_ & _ & X). rewrite SI in X. destruct X as (m2 & S2 & _ & _ & X). rewrite TT in X.
      assert (m2 = m') by congruence. subst m2. destruct X as (-> & -> & X).
      assert (R : hrel (look v) h (merge_back V assign m m' a h)) by (rewrite <- L; now apply merge_back_hrel). rewrite and_comm, and_assoc. split; [exact R|].
      rewrite and_comm.
      destruct X as [(W & Q & N)|[(W & Q & N)|(W & Q & N & NE)]].
      - assert (PE : pending ref m' = pending ref m) by (unfold pending; now rewrite Q).
        split; [apply (valid_hrel _ _ _ _ R); intros r H; apply VA; congruence|].
        rewrite (look_wants _ W) in *. split; [|congruence]. intro pre. cbn.
        unfold known. rewrite PE. now rewrite (hrel_none _ _ _ R).
      - assert (HH : merge_back V assign m m' a h = h) by (unfold merge_back; now rewrite N, Nat.eqb_refl). rewrite HH.
        assert (PE : pending ref m' = pending ref m ++ [(a, v)]) by (unfold pending; rewrite Q, pending_app; reflexivity).
        assert (AA : at_addr h (a, v) = look v) by (unfold at_addr; cbn; now rewrite A).
        split; [intros r H; rewrite PE in H; apply in_app_or in H; destruct H as [H|[<-|[]]]; [auto|cbn; congruence]|].
        split; [|intros _; eauto]. intro pre. unfold known. rewrite PE, map_app. cbn [map]. rewrite app_assoc, newest_snoc, AA. reflexivity.
      - destruct (good_last m (G _ _ SI) NE) as (q & b & QQ & PP). assert (PE : pending ref m' = pending ref m) by (unfold pending; now rewrite Q).
        split; [apply (valid_hrel _ _ _ _ R); intros r H; apply VA; congruence|].
        destruct (look v) as [x|] eqn:LV.
        + destruct b as (b, w).
          destruct (nth_error h b) as [u|] eqn:HB; [|exfalso; apply (VA (b, w)); [rewrite PP; apply in_or_app; right; now left|exact HB]].
          assert (AA : at_addr (merge_back V assign m m' a h) (b, w) = Some x).
          { unfold merge_back. rewrite N. replace (S (nsquash ref m) =? nsquash ref m) with false by (symmetry; apply Nat.eqb_neq; lia). rewrite QQ.
            match goal with |- context [lastn ?l] => replace (lastn l) with (Some (q, Some (b, w))) by (symmetry; now apply lastn_spec) end. rewrite HB, A.
            unfold at_addr. cbn [fst]. rewrite nth_set_at, Nat.eqb_refl. rewrite HB, look_assign, L. reflexivity. }
          split; [|intros _; exists (pending_of ref q), (b, w); split; [congruence|exact AA]]. intro pre. unfold known. rewrite PE, PP, map_app. cbn [map]. rewrite app_assoc, newest_snoc, AA. reflexivity.
        + split; [|congruence]. intro pre. cbn. unfold known. rewrite PE. now rewrite (hrel_none _ _ _ R).
    Qed.
    Lemma post_one_hrel a v h s k h' s' l y : post_one a v h s k = (h', s', l) -> goods s -> nth_error h a = Some y -> look y = look v -> hrel (look v) h h'.
    Proof.
      intros E G A L. destruct (post_one_ok _ _ _ _ _ _ _ _ E G) as (_ & _ & X). destruct (s k) as [m|]; [|destruct X as (_ & -> & _); apply hrel_refl].
      destruct X as (m' & _ & _ & _ & X). destruct (typed ref m); [|destruct X as (_ & -> & _); apply hrel_refl]. destruct X as (_ & -> & _). rewrite <- L. now apply merge_back_hrel.
    Qed.
    Lemma post_all_hrel a v ids : forall h s h' s' l y, post_all a v h s ids = (h', s', l) -> goods s -> nth_error h a = Some y -> look y = look v -> hrel (look v) h h'.
    Proof.
      induction ids as [|k ids IH]; intros h s h' s' l y E G A L; [injection E as <- <- <-; apply hrel_refl|].
      cbn in E. destruct (post_one a v h s k) as [[h1 s1] l1] eqn:E1. destruct (post_all a v h1 s1 ids) as [[h2 s2] l2] eqn:E2. injection E as <- <- <-.
      pose proof (post_one_hrel _ _ _ _ _ _ _ _ _ E1 G A L) as R1. destruct (hrel_cell _ _ _ _ _ R1 A L) as (y' & A' & L').
      apply (hrel_trans _ _ _ _ R1). apply (IH _ _ _ _ _ _ E2 (proj1 (post_one_ok _ _ _ _ _ _ _ _ E1 G)) A' L').
    Qed.
    Lemma post_all_known a v ids m m' : forall h s h' s' l y, post_all a v h s ids = (h', s', l) -> goods s -> s id = Some m -> typed ref m = true -> s' id = Some m' ->
      cnt id ids <= 1 -> 1 <= cnt id ids -> nth_error h a = Some y -> look y = look v -> valid h m ->
      valid h' m' /\ forall pre, known pre h' m' = over (known pre h m) (look v).
    Proof.
      induction ids as [|k ids IH]; intros h s h' s' l y E G SI TT SI' C1 C2 A L VA; [cbn in C2; lia|].
      cbn in E. destruct (post_one a v h s k) as [[h1 s1] l1] eqn:E1. destruct (post_all a v h1 s1 ids) as [[h2 s2] l2] eqn:E2. injection E as <- <- <-.
      pose proof (post_one_hrel _ _ _ _ _ _ _ _ _ E1 G A L) as R1. destruct (hrel_cell _ _ _ _ _ R1 A L) as (y' & A' & L').
      destruct (post_one_ok _ _ _ _ _ _ _ _ E1 G) as (G1 & OT & X). rewrite cnt_cons in *. destruct (Nat.eq_dec k id) as [->|N].
      - rewrite SI in X. destruct X as (m1 & S1 & _). destruct (post_all_ok _ _ _ _ _ _ _ _ E2 G1) as (_ & _ & _ & O & _).
        destruct (O id) as (S2 & _); [intro H; apply cnt_in in H; lia|]. assert (m1 = m') by congruence. subst m1.
        destruct (post_one_known _ _ _ _ _ _ _ _ _ _ E1 G SI TT S1 A L VA) as (V1 & _ & K & LA).
        pose proof (post_all_hrel _ _ _ _ _ _ _ _ _ E2 G1 A' L') as R2. split; [exact (valid_hrel _ _ _ _ R2 V1)|]. intro pre. rewrite <- K. apply (known_hrel _ _ _ _ _ R2 LA).
      - assert (S1 : s1 id = Some m) by (rewrite OT; auto). destruct (IH _ _ _ _ _ _ E2 G1 S1 TT SI' C1 C2 A' L' (valid_hrel _ _ _ _ R1 VA)) as (V2 & K). split; [exact V2|].
        intro pre. rewrite K. destruct (look v) as [x|] eqn:LV; [reflexivity|]. cbn. unfold known. now rewrite (hrel_none _ _ _ R1).
    Qed.

    (** ** the whole *)
    Definition informed (p : pv V) (l : list (log V)) : Prop :=
      forall m c, subs V p id = Some m -> typed ref m = true -> current V p = Some c ->
        valid (heap V p) m /\ known (sends_of id l) (heap V p) m = look c.

    Lemma sends_known h m o l m' : ((sent ref o = [] /\ queue ref m' = queue ref m) \/ exists r, sent ref o = [r] /\ queue ref m = Some r :: queue ref m') ->
      known (sends_of id (l ++ sends V h id o)) h m' = known (sends_of id l) h m /\ (valid h m -> valid h m').
    Proof.
      intro X. assert (SS : map look (sends_of id (sends V h id o)) = flat_map (fun r => match nth_error h (fst r) with Some v => [look v] | None => [] end) (sent ref o)).
      { clear X. induction o as [|x o IH]; [reflexivity|]. destruct x as [| [a v] | | | | | | | |]; cbn; auto. destruct (nth_error h a); cbn; [|exact IH]. rewrite Nat.eqb_refl. cbn. now rewrite IH. }
      unfold known, valid, pending. rewrite sends_app, map_app, SS. destruct X as [(X & Q)|(r & X & Q)]; rewrite X, Q; cbn.
      - rewrite app_nil_r. auto.
      - split; [|intros H r' I; apply H; now right]. rewrite app_nil_r. unfold at_addr at 2. destruct (nth_error h (fst r)); cbn.
        + now rewrite <- app_assoc.
        + rewrite app_nil_r, !newest_app. f_equal.
    Qed.
    Lemma sends_foreign k h o l : k <> id -> sends_of id (l ++ sends V h k o) = sends_of id l.
    Proof.
      intro N. apply Nat.eqb_neq in N. rewrite sends_app. replace (sends_of id (sends V h k o)) with (@nil V); [apply app_nil_r|].
      induction o as [|x o IH]; [reflexivity|]. destruct x as [| [a v] | | | | | | | |]; cbn; auto. destruct (nth_error h a); cbn; rewrite ?N; auto.
    Qed.
    Lemma known_grow pre h x m : valid h m -> valid (h ++ x) m /\ known pre (h ++ x) m = known pre h m.
    Proof.
      intro VA. split.
      - intros r H. specialize (VA r H). rewrite nth_error_app1; [exact VA|]. now apply nth_error_Some.
      - unfold known. do 2 f_equal. apply map_ext_in. intros r H. unfold at_addr. rewrite nth_error_app1; [reflexivity|]. apply nth_error_Some. now apply VA.
    Qed.
    Lemma pstep_informed xs p e p' l0 l : pstep p e = Some (p', l) -> goods (subs V p) -> tidy p -> current V p <> None -> stays_event id e -> belongs id xs p l0 ->
      informed p l0 -> informed p' (l0 ++ l).
    Proof.
      intros E G TI CU SE (B & _) I m' c' S' T' C'.
      destruct (TI id) as (T1 & _). assert (SS : exists m, subs V p id = Some m) by (destruct (subs V p id); [eauto|lia]). destruct SS as (mi & SS). rewrite SS in T1.
      destruct e.
      - cbn in E. destruct (current V p) eqn:CC; [discriminate|]. now destruct CU.
      - destruct SE.
      - cbn [SharedPVModel.pstep] in E. destruct (current V p) as [c|] eqn:CC; [|discriminate]. destruct (members V p) as [|k ids] eqn:MM; [cbn in B; lia|].
        destruct (post_all _ _ _ _ (k :: ids)) as [[h s] l'] eqn:PA. injection E as <- <-. cbn [subs heap current] in *. injection C' as <-.
        destruct (post_all_ok _ _ _ _ _ _ _ _ PA G) as (_ & M & _ & _ & SN). destruct (M _ _ SS) as (m1 & S1 & TE & _). assert (m1 = m') by congruence. subst m1.
        rewrite T' in TE. destruct (I _ _ SS (eq_sym TE) CC) as (VA & K). destruct (known_grow (sends_of id l0) _ [clone v] _ VA) as (VA' & K').
        destruct (post_all_known _ _ _ _ _ _ _ _ _ _ (clone v) PA G SS (eq_sym TE) S' ltac:(lia) B) as (V2 & K2); auto.
        { rewrite nth_error_app2, Nat.sub_diag by lia. reflexivity. }
        split; [exact V2|]. rewrite sends_app, SN, app_nil_r, K2, K', K, look_assign, look_clone. reflexivity.
      - cbn [SharedPVModel.pstep] in E. destruct (subs V p id0) eqn:SI; [discriminate|]. assert (N : id <> id0) by congruence.
        destruct (current V p) eqn:CC; injection E as <- <-; cbn [subs heap current] in *; rewrite app_nil_r; rewrite set_sub_other in S' by exact N; [|congruence].
        rewrite <- CC in C'. destruct (I _ _ S' T' C') as (VA & K). destruct (known_grow (sends_of id l0) _ [clone v] _ VA) as (VA' & K'). split; [exact VA'|congruence].
      - destruct (pconnect_ok _ _ _ _ E G TI) as (a & v & m & m2 & FC & HA & SI & S2 & OT & HP & CP & MP & WP & CNP & CDP & ->).
        assert (N : id0 <> id) by (intros ->; apply find_conn_in in FC; lia). rewrite OT in S' by auto. rewrite CP in C'. destruct (I _ _ S' T' C') as (VA & K). rewrite HP. split; [exact VA|].
        rewrite sends_app. replace (sends_of id (if typed ref m2 then [LOffer V id0 v] else [])) with (@nil V) by (now destruct (typed ref m2)). now rewrite app_nil_r.
      - cbn [SharedPVModel.pstep] in E. destruct (existsb _ _) eqn:EX; [|discriminate]. injection E as <- <-. cbn [subs heap current] in *. rewrite app_nil_r. now apply I.
      - injection E as <- <-. cbn [subs heap current] in *. rewrite app_nil_r. now apply I.
      - cbn [SharedPVModel.pstep] in E. destruct (pv_event V e) eqn:PE; [|discriminate]. destruct (subs V p id0) as [m0|] eqn:SI; [|discriminate]. destruct (mstep id0 m0 e) as [(m2, o)|] eqn:S; [|discriminate].
        injection E as <- <-. cbn [subs heap current] in *. destruct (Nat.eq_dec id id0) as [<-|N].
        + rewrite set_sub_same in S'. injection S' as <-. rewrite (typed_step _ _ _ _ _ S PE) in T'. destruct (I _ _ SI T' C') as (VA & K).
          destruct (step_plain _ _ _ _ _ S (G _ _ SI)) as (_ & _ & X); [intros a b c ->; discriminate|]. destruct (sends_known (heap V p) m0 o l0 m2 X) as (K2 & V2). split; [auto|congruence].
        + rewrite set_sub_other in S' by exact N. rewrite sends_foreign by auto. now apply I.
    Qed.
    Lemma pstep_current p e p' l : pstep p e = Some (p', l) -> e <> PClose V -> current V p <> None -> current V p' <> None.
    Proof.
      intros E NC CU. destruct e; cbn [SharedPVModel.pstep] in E.
      - destruct (current V p) eqn:CC; [discriminate|now destruct CU].
      - congruence.
      - destruct (current V p) eqn:CC; [|discriminate]. destruct (match members V p with [] => _ | _ => _ end) as [[h s] l']. injection E as <- <-. discriminate.
      - destruct (subs V p id0); [discriminate|]. destruct (current V p) eqn:CC; [|now destruct CU]. injection E as <- <-. discriminate.
      - destruct (find_conn id0 (connecting V p)); [|discriminate]. destruct (subs V p id0); [|discriminate]. destruct (nth_error _ _); [|discriminate]. destruct (post_one _ _ _ _ _) as [[h s] l']. injection E as <- <-. exact CU.
      - destruct (existsb _ _); [|discriminate]. injection E as <- <-. exact CU.
      - injection E as <- <-. exact CU.
      - destruct (pv_event V e); [|discriminate]. destruct (subs V p id0); [|discriminate]. destruct (mstep id0 _ e) as [(m2, o)|]; [|discriminate]. injection E as <- <-. exact CU.
    Qed.
    Lemma prun_informed es : forall xs p p' l0 l, prun p es = Some (p', l) -> goods (subs V p) -> tidy p -> current V p <> None -> Forall (stays_event id) es ->
      belongs id xs p l0 -> informed p l0 -> informed p' (l0 ++ l).
    Proof.
      induction es as [|e es IH]; intros xs p p' l0 l R G TI CU Q B I; [injection R as <- <-; now rewrite app_nil_r|].
      apply prun_cons in R. destruct R as (p1 & l1 & l' & S & R & ->). inversion_clear Q as [|? ? Q1 Q2]. pose proof (pstep_belongs _ _ _ _ _ _ _ S G TI Q1 B) as B1.
      rewrite app_assoc. apply (IH _ _ _ _ _ R (pstep_good _ _ _ _ S G) (pstep_tidy _ _ _ _ S G TI)) with (4 := pstep_informed _ _ _ _ _ _ S G TI CU Q1 B I) (3 := B1); auto.
      apply (pstep_current _ _ _ _ S); [intros ->; destruct Q1|exact CU].
    Qed.

    (** while connecting *)
    Definition nearly (x : V) (p : pv V) (l : list (log V)) : Prop :=
      (exists m, subs V p id = Some m /\ typed ref m = false /\ sends_of id l = []) \/
      (forall m, subs V p id = Some m -> valid (heap V p) m /\ known (sends_of id l) (heap V p) m = look x).
    Lemma untyped_step m e m' o : mstep id m e = Some (m', o) -> good m -> typed ref m = false -> (forall a b c, e <> EPost ref a b c) -> sent ref o = [].
    Proof.
      intros E G TF NP. destruct (step_plain _ _ _ _ _ E G NP) as (_ & _ & [(X & _)|(r & _ & Q)]); [exact X|]. destruct G as ((I0 & _) & _). rewrite (proj1 (i_typed _ _ I0 TF)) in Q. discriminate.
    Qed.
    Lemma sends_sent_nil h k o : sent ref o = [] -> sends V h k o = [].
    Proof. induction o as [|x o IH]; [reflexivity|]. destruct x as [| [a v] | | | | | | | |]; cbn; auto. discriminate. Qed.
    Lemma pstep_nearly x p e p' l0 l : pstep p e = Some (p', l) -> goods (subs V p) -> tidy p -> current V p <> None -> quiet_event e -> coming id x p l0 ->
      nearly x p l0 -> nearly x p' (l0 ++ l).
    Proof.
      intros E G TI CU QE C NE. destruct e; try destruct QE.
      - cbn in E. destruct (current V p); [discriminate|now destruct CU].
      - cbn [SharedPVModel.pstep] in E. destruct (subs V p id0) eqn:SI; [discriminate|]. destruct (current V p) as [c|] eqn:CC; [|now destruct CU]. injection E as <- <-. rewrite app_nil_r. unfold nearly. cbn [subs heap].
        assert (N : id <> id0).
        { intros <-. destruct (TI id) as (T1 & _). rewrite SI in T1. destruct C as [(a & C & _)|[(C & _)|(C & _)]]; [apply find_conn_in in C; lia|lia|congruence]. }
        rewrite set_sub_other by exact N. destruct NE as [NE|NE]; [auto|]. right. intros m H. destruct (NE m H) as (VA & K). destruct (known_grow (sends_of id l0) _ [clone c] _ VA) as (VA' & K'). split; [exact VA'|congruence].
      - destruct (pconnect_ok _ _ _ _ E G TI) as (a & v & m & m2 & FC & HA & SI & S2 & OT & HP & CP & MP & WP & CNP & CDP & LL). unfold nearly. rewrite HP. rewrite sends_app.
        assert (SL : sends_of id l = []) by (rewrite LL; now destruct (typed ref m2)). rewrite SL, app_nil_r. destruct (Nat.eq_dec id0 id) as [->|N].
        + rewrite S2. assert (TF : typed ref m = false) by (destruct (TI id) as (_ & X); apply X; [exact SI|]; apply find_conn_in in FC; lia).
          assert (C0 : v = x).
          { destruct (TI id) as (T1 & _). rewrite SI in T1. pose proof (find_conn_in _ _ _ FC). destruct C as [(b & C1 & C2 & C3)|[(C1 & C2)|(C1 & C2)]]; [congruence|lia|lia]. }
          subst v. cbn [SharedPVModel.pstep] in E. rewrite FC, SI, HA in E. 
          match type of E with context [set_sub V id ?x _] => set (m1 := x) in E end.
          destruct (connect_ok id m m1 eq_refl (G _ _ SI)) as (G1 & _ & _ & T2 & _). specialize (T2 TF). clearbody m1.
          destruct (post_one _ _ _ _ _) as [[h s] l'] eqn:PO. injection E as <- <-. cbn [subs heap] in *.
          assert (G' : goods (set_sub V id m1 (subs V p))).
          { intros j y J. destruct (Nat.eq_dec j id) as [->|N]; [rewrite set_sub_same in J; injection J as <-; exact G1|rewrite set_sub_other in J by exact N; now apply (G j)]. }
          assert (P0 : pending ref m = []) by (unfold pending; destruct (G _ _ SI) as ((I0 & _) & _); now rewrite (proj1 (i_typed _ _ I0 TF))).
          assert (P1 : pending ref m1 = []) by (unfold pending; now rewrite T2).
          assert (K0 : sends_of id l0 = [] \/ newest (map look (sends_of id l0)) = look x).
          { destruct NE as [(? & _ & _ & NE)|NE]; [auto|]. right. destruct (NE m SI) as (_ & K). unfold known in K. rewrite P0 in K. cbn in K. now rewrite app_nil_r in K. }
          destruct (typed ref m1) eqn:TM.
          * right. intros y H. injection H as <-. destruct (post_one_known _ _ _ _ _ _ _ m1 m2 x PO G') as (V2 & _ & K & _); auto; [now rewrite set_sub_same|intros r; rewrite P1; easy|].
            rewrite <- HP. split; [exact V2|]. rewrite K. unfold known. rewrite P1. cbn. rewrite app_nil_r. destruct K0 as [-> | ->]; destruct (look x); reflexivity.
          * apply post_one_ok in PO; [|exact G']. destruct PO as (_ & _ & PO). rewrite set_sub_same in PO. destruct PO as (m3 & S3 & _ & _ & PO). rewrite TM in PO. destruct PO as (_ & _ & ->).
            assert (m2 = m1) by congruence. subst m2. destruct K0 as [K0|K0]; [left; eauto|]. right. intros y H. injection H as <-. split; [intros r; rewrite P1; easy|].
            unfold known. rewrite P1. cbn. now rewrite app_nil_r.
        + rewrite OT by auto. exact NE.
      - cbn [SharedPVModel.pstep] in E. destruct (existsb _ _) eqn:EX; [|discriminate]. injection E as <- <-. rewrite app_nil_r. exact NE.
      - injection E as <- <-. rewrite app_nil_r. exact NE.
      - cbn [SharedPVModel.pstep] in E. destruct (pv_event V e) eqn:PE; [|discriminate]. destruct (subs V p id0) as [m0|] eqn:SI; [|discriminate]. destruct (mstep id0 m0 e) as [(m2, o)|] eqn:S; [|discriminate].
        injection E as <- <-. unfold nearly. cbn [subs heap]. destruct (Nat.eq_dec id id0) as [<-|N].
        + rewrite set_sub_same. destruct NE as [(m & H & TF & SN)|NE].
          * left. exists m2. assert (m = m0) by congruence. subst m. split; [reflexivity|]. rewrite (typed_step _ _ _ _ _ S PE). split; [exact TF|]. rewrite sends_app, SN.
            rewrite (sends_sent_nil _ _ _ (untyped_step _ _ _ _ S (G _ _ SI) TF ltac:(intros a b c ->; discriminate))). reflexivity.
          * right. intros m H. injection H as <-. destruct (NE _ SI) as (VA & K).
            destruct (step_plain _ _ _ _ _ S (G _ _ SI)) as (_ & _ & X); [intros a b c ->; discriminate|]. destruct (sends_known (heap V p) m0 o l0 m2 X) as (K2 & V2). split; [auto|congruence].
        + rewrite set_sub_other by exact N. rewrite sends_foreign by auto. exact NE.
    Qed.
    Lemma prun_nearly x es : forall p p' l0 l, prun p es = Some (p', l) -> goods (subs V p) -> tidy p -> current V p <> None -> Forall quiet_event es ->
      coming id x p l0 -> nearly x p l0 -> nearly x p' (l0 ++ l) /\ current V p' = current V p.
    Proof.
      induction es as [|e es IH]; intros p p' l0 l R G TI CU Q C NE; [injection R as <- <-; now rewrite app_nil_r|].
      apply prun_cons in R. destruct R as (p1 & l1 & l' & S & R & ->). inversion_clear Q as [|? ? Q1 Q2]. destruct (pstep_coming _ _ _ _ _ _ _ S G TI CU Q1 C) as (CU1 & C1).
      rewrite app_assoc. destruct (IH _ _ _ _ R (pstep_good _ _ _ _ S G) (pstep_tidy _ _ _ _ S G TI) CU1 Q2 C1 (pstep_nearly _ _ _ _ _ _ S G TI CU Q1 C NE)) as (A & B).
      split; [exact A|]. rewrite B. clear - S Q1 CU G TI id. destruct e; try destruct Q1.
      - cbn in S. destruct (current V p); [discriminate|now destruct CU].
      - cbn in S. destruct (subs V p id0); [discriminate|]. destruct (current V p); injection S as <- <-; reflexivity.
      - destruct (pconnect_ok _ _ _ _ S G TI) as (a & v & m & m2 & _ & _ & _ & _ & _ & _ & CP & _). exact CP.
      - cbn in S. destruct (existsb _ _); [|discriminate]. injection S as <- <-. reflexivity.
      - injection S as <- <-. reflexivity.
      - cbn [SharedPVModel.pstep] in S. destruct (pv_event V e); [|discriminate]. destruct (subs V p id0); [|discriminate]. destruct (mstep id0 _ e) as [(m2, o)|]; [|discriminate]. injection S as <- <-. reflexivity.
    Qed.
  End View.

  (** ** Joining *)
  Lemma join id x p2 l2 es2 pos es3 p l : goods (subs V p2) -> tidy p2 -> current V p2 <> None -> coming id x p2 l2 ->
    Forall quiet_event es2 -> Forall (stays_event id) es3 -> prun p2 (es2 ++ PEnter V id pos :: es3) = Some (p, l) ->
    belongs id (x :: map clone (posts V es3)) p (l2 ++ l).
  Proof.
    intros G2 T2 CU2 C2 Q Q3 R. apply prun_app in R. destruct R as (p3 & l5 & l6 & R3 & R & ->).
    pose proof (prun_coming _ _ _ _ _ _ _ R3 G2 T2 CU2 Q C2) as C3.
    pose proof (prun_good _ _ _ _ R3 G2) as G3. pose proof (prun_tidy _ _ _ _ R3 G2 T2) as T3.
    apply prun_cons in R. destruct R as (p4 & l7 & l8 & S4 & R & ->).
    pose proof (enter_belongs _ _ _ _ _ _ _ S4 T3 C3) as B4.
    pose proof (prun_belongs _ _ _ _ _ _ _ R (pstep_good _ _ _ _ S4 G3) (pstep_tidy _ _ _ _ S4 G3 T3) Q3 B4) as B5.
    rewrite !app_assoc in *. exact B5.
  Qed.
  Lemma join_view T (look : V -> option T) id (LA : forall a b, look (assign a b) = match look b with Some x => Some x | None => look a end)
    (LC : forall a, look (clone a) = look a) (LW : forall v, wants id v = false -> look v = None) x c p2 l2 es2 pos es3 p l :
    goods (subs V p2) -> tidy p2 -> current V p2 = Some c -> look x = look c -> coming id x p2 l2 -> nearly T look id x p2 l2 ->
    Forall quiet_event es2 -> Forall (stays_event id) es3 -> prun p2 (es2 ++ PEnter V id pos :: es3) = Some (p, l) ->
    informed T look id p (l2 ++ l).
  Proof.
    intros G2 T2 CU2 LX C2 N2 Q Q3 R. apply prun_app in R. destruct R as (p3 & l5 & l6 & R3 & R & ->).
    assert (CN : current V p2 <> None) by congruence.
    pose proof (prun_coming _ _ _ _ _ _ _ R3 G2 T2 CN Q C2) as C3.
    destruct (prun_nearly _ look id LA LW _ _ _ _ _ _ R3 G2 T2 CN Q C2 N2) as (N3 & CU3).
    pose proof (prun_good _ _ _ _ R3 G2) as G3. pose proof (prun_tidy _ _ _ _ R3 G2 T2) as T3.
    apply prun_cons in R. destruct R as (p4 & l7 & l8 & S4 & R & ->).
    pose proof (enter_belongs _ _ _ _ _ _ _ S4 T3 C3) as B4.
    assert (I4 : informed T look id p4 ((l2 ++ l5) ++ l7) /\ current V p4 <> None).
    { cbn in S4. destruct (existsb _ _); [|discriminate]. injection S4 as <- <-. unfold informed. cbn [subs heap current]. rewrite CU3. split; [|exact CN]. rewrite app_nil_r. intros m c' SM TM CC.
      destruct N3 as [(m3 & S3 & TF & _)|N3]; [congruence|]. destruct (N3 _ SM) as (A & B). split; [exact A|]. rewrite B. congruence. }
    destruct I4 as (I4 & CN4).
    pose proof (prun_informed _ look id LA LC LW _ _ _ _ _ _ R (pstep_good _ _ _ _ S4 G3) (pstep_tidy _ _ _ _ S4 G3 T3) CN4 Q3 B4 I4) as B5.
    rewrite !app_assoc in *. exact B5.
  Qed.
  Lemma quiet_events es : no_change V es -> Forall quiet_event es.
  Proof.
    intros (NP & NC). induction es as [|e es IH]; constructor.
    - destruct e; cbn; auto; [apply NC; now left|discriminate NP].
    - apply IH; [destruct e; (exact NP || discriminate NP)|intro; apply NC; now right].
  Qed.
  Lemma stays_events id es : ~ In (PClose V) es -> ~ In (PGone V id) es -> Forall (stays_event id) es.
  Proof. intros A B. apply Forall_forall. intros e H. destruct e; cbn; auto. intros ->. auto. Qed.

  (** a subscription set up while the SharedPV is open *)
  Lemma new_coming id nack pipe qsize p1 l1 c p2 l3 : pstep p1 (PNew V id nack pipe qsize) = Some (p2, l3) -> current V p1 = Some c ->
    offers_of id l1 = [] -> sends_of id l1 = [] ->
    current V p2 = Some c /\ coming id (clone c) p2 (l1 ++ l3) /\ forall T look, nearly T look id (clone c) p2 (l1 ++ l3).
  Proof.
    cbn [SharedPVModel.pstep]. intros S2 CC O1 S1. destruct (subs V p1 id) eqn:N1; [discriminate|]. rewrite CC in S2. injection S2 as <- <-. cbn [current]. split; [reflexivity|]. rewrite app_nil_r. split.
    - left. cbn [connecting heap]. exists (length (heap V p1)). unfold find_conn. cbn [find fst]. rewrite Nat.eqb_refl. split; [reflexivity|]. split; [|exact O1].
      now rewrite nth_error_app2, Nat.sub_diag by lia.
    - intros T look. left. cbn [subs]. rewrite set_sub_same. eexists. split; [reflexivity|]. auto.
  Qed.
  (** one set up before it is opened *)
  Definition waits (id : nat) (p : pv V) (l : list (log V)) : Prop := 1 <= cnt id (waiting V p) /\ offers_of id l = [] /\ sends_of id l = [].
  Lemma pstep_waits id p e p' l0 l : pstep p e = Some (p', l) -> goods (subs V p) -> tidy p -> (forall v, e <> POpen V v) -> e <> PGone V id ->
    waits id p l0 -> waits id p' (l0 ++ l).
  Proof.
    intros E G T NO NG (W & O & S). destruct (T id) as (T1 & T2). assert (SS : exists m, subs V p id = Some m) by (destruct (subs V p id); [eauto|lia]). destruct SS as (mi & SS). rewrite SS in T1.
    specialize (T2 _ SS ltac:(lia)). unfold waits. rewrite offers_app, sends_app, O, S. destruct e.
    - now destruct (NO v).
    - injection E as <- <-. auto.
    - cbn [SharedPVModel.pstep] in E. destruct (current V p); [|discriminate]. destruct (members V p) as [|k ids] eqn:MM; [injection E as <- <-; auto|].
      destruct (post_all _ _ _ _ (k :: ids)) as [[h s] l'] eqn:PA. injection E as <- <-. cbn [waiting]. destruct (post_all_ok _ _ _ _ _ _ _ _ PA G) as (_ & _ & _ & OO & SN).
      destruct (OO id) as (_ & ->); [intro H; apply cnt_in in H; lia|]. rewrite SN. auto.
    - cbn [SharedPVModel.pstep] in E. destruct (subs V p id0) eqn:SI; [discriminate|]. destruct (current V p); injection E as <- <-; cbn [waiting]; rewrite ?cnt_app; cbn; (split; [lia|auto]).
    - destruct (pconnect_ok _ _ _ _ E G T) as (a & v & m & m2 & FC & HA & SI & S2 & OT & HP & CP & MP & WP & CNP & CDP & ->).
      assert (N : id0 <> id) by (intros ->; apply find_conn_in in FC; lia). apply Nat.eqb_neq in N. rewrite WP. destruct (typed ref m2); cbn; rewrite ?N; auto.
    - cbn [SharedPVModel.pstep] in E. destruct (existsb _ _) eqn:EX; [|discriminate]. injection E as <- <-. auto.
    - injection E as <- <-. cbn [waiting]. rewrite cnt_drop. destruct (Nat.eq_dec id0 id); [congruence|auto].
    - cbn [SharedPVModel.pstep] in E. destruct (pv_event V e) eqn:PE; [|discriminate]. destruct (subs V p id0) as [m0|] eqn:SI; [|discriminate]. destruct (mstep id0 m0 e) as [(m2, o)|] eqn:ST; [|discriminate].
      injection E as <- <-. cbn [waiting]. rewrite offers_none. split; [exact W|]. split; [reflexivity|]. cbn [app]. destruct (Nat.eq_dec id0 id) as [->|N].
      + assert (m0 = mi) by congruence. subst m0. now rewrite (sends_sent_nil _ _ _ (untyped_step _ _ _ _ _ ST (G _ _ SI) T2 ltac:(intros a b c ->; discriminate))).
      + exact (sends_foreign id id0 (heap V p) o [] N).
  Qed.
  Lemma prun_waits id es : forall p p' l0 l, prun p es = Some (p', l) -> goods (subs V p) -> tidy p -> (forall v, ~ In (POpen V v) es) -> ~ In (PGone V id) es ->
    waits id p l0 -> waits id p' (l0 ++ l).
  Proof.
    induction es as [|e es IH]; intros p p' l0 l R G T NO NG W; [injection R as <- <-; now rewrite app_nil_r|].
    apply prun_cons in R. destruct R as (p1 & l1 & l' & S & R & ->). rewrite app_assoc.
    apply (IH _ _ _ _ R (pstep_good _ _ _ _ S G) (pstep_tidy _ _ _ _ S G T)); [intros v H; apply (NO v); now right|intro; apply NG; now right|].
    apply (pstep_waits _ _ _ _ _ _ S G T); [intros v ->; apply (NO v); now left|intros ->; apply NG; now left|exact W].
  Qed.
  Lemma open_coming id v p1 l1 p2 l3 : pstep p1 (POpen V v) = Some (p2, l3) -> tidy p1 -> waits id p1 l1 ->
    current V p2 = Some (clone v) /\ coming id (clone v) p2 (l1 ++ l3) /\ forall T look, nearly T look id (clone v) p2 (l1 ++ l3).
  Proof.
    cbn [SharedPVModel.pstep]. intros E T (W & O & S). destruct (current V p1); [discriminate|]. injection E as <- <-. cbn [current]. split; [reflexivity|]. rewrite app_nil_r. split.
    - left. cbn [connecting heap]. exists (length (heap V p1)). split; [|split; [now rewrite nth_error_app2, Nat.sub_diag by lia|exact O]].
      apply in_cnt in W. unfold find_conn. induction (waiting V p1) as [|k w IH]; [destruct W|]. cbn. destruct (Nat.eqb_spec k id); [reflexivity|]. apply IH. destruct W; [congruence|assumption].
    - intros A look. left. cbn [subs]. destruct (T id) as (T1 & T2). destruct (subs V p1 id) as [m|]; [|lia]. exists m. split; [reflexivity|]. split; [apply T2; [reflexivity|lia]|exact S].
  Qed.
  Lemma new_waits id nack pipe qsize p1 l1 p2 l3 : pstep p1 (PNew V id nack pipe qsize) = Some (p2, l3) -> current V p1 = None ->
    offers_of id l1 = [] -> sends_of id l1 = [] -> waits id p2 (l1 ++ l3).
  Proof.
    cbn [SharedPVModel.pstep]. intros S2 CC O1 S1. destruct (subs V p1 id) eqn:N1; [discriminate|]. rewrite CC in S2. injection S2 as <- <-. unfold waits. cbn [waiting]. rewrite app_nil_r, cnt_app. cbn.
    destruct (Nat.eq_dec id id); [|congruence]. split; [lia|auto].
  Qed.
  (** the value *)
  Lemma prun_value es : forall p p' l c, prun p es = Some (p', l) -> current V p = Some c -> ~ In (PClose V) es -> current V p' = Some (fold_left assign (posts V es) c).
  Proof.
    induction es as [|e es IH]; intros p p' l c R C NC; [injection R as <- <-; exact C|].
    apply prun_cons in R. destruct R as (p1 & l1 & l' & S & R & ->). rewrite posts_cons, fold_left_app.
    apply (IH _ _ _ _ R); [|intro; apply NC; now right]. clear R IH. destruct e; cbn [SharedPVModel.pstep] in S; cbn [posts fold_left].
    - rewrite C in S. discriminate.
    - exfalso. apply NC. now left.
    - rewrite C in S. destruct (match members V p with [] => _ | _ => _ end) as [[h s] l2]. injection S as <- <-. reflexivity.
    - destruct (subs V p id); [discriminate|]. rewrite C in S. injection S as <- <-. reflexivity.
    - destruct (find_conn id (connecting V p)); [|discriminate]. destruct (subs V p id); [|discriminate]. destruct (nth_error _ _); [|discriminate]. destruct (post_one _ _ _ _ _) as [[h s] l2]. injection S as <- <-. exact C.
    - destruct (existsb _ _); [|discriminate]. injection S as <- <-. exact C.
    - injection S as <- <-. exact C.
    - destruct (pv_event V e); [|discriminate]. destruct (subs V p id); [|discriminate]. destruct (mstep id _ e) as [(m2, o)|]; [|discriminate]. injection S as <- <-. exact C.
  Qed.
End Proofs.

(** ** Channels *)
Lemma crun_cons s e es s2 o2 : crun s (e :: es) = Some (s2, o2) ->
  exists s1 o1 o', cstep s e = Some (s1, o1) /\ crun s1 es = Some (s2, o') /\ o2 = o1 ++ o'.
Proof.
  cbn. destruct (cstep s e) as [(p1, l1)|]; [|discriminate]. destruct (crun p1 es) as [(p3, l')|] eqn:R; [|discriminate]. injection 1 as <- <-. eauto 8.
Qed.
(** which notice is due next *)
Definition due (w : nat) (s : chans) : notice :=
  match busy s w with Some n => n | None => match attached s with [] => First | _ => Last end end.
Definition settled (w : nat) (s : chans) : Prop :=
  match busy s w with Some First => attached s <> [] | Some Last => attached s = [] | None => True end /\
  (forall c, In c (attached s) <-> In c (map fst (open_chans s))).
Lemma set_busy_same w x f : set_busy w x f w = x.
Proof. unfold set_busy. now rewrite Nat.eqb_refl. Qed.
Lemma cstep_due w s e s' o : cstep s e = Some (s', o) -> e <> CClose -> one_worker w [e] -> settled w s ->
  settled w s' /\ match o with [] => due w s' = due w s | [n] => n = due w s /\ due w s' = match n with First => Last | Last => First end | _ => False end.
Proof.
  intros E NC OW (B & IN). unfold one_worker in OW. rewrite Forall_cons_iff in OW. destruct OW as (OW & _). destruct e as [c w'|c w'|w'|]; [| | |congruence]; subst w'; cbn in E.
  - destruct (existsb _ _); [discriminate|]. destruct (busy s w) eqn:BW; [discriminate|]. injection E as <- <-. unfold settled, due. cbn. rewrite set_busy_same, BW. split; [split|].
    + destruct (attached s); [discriminate|exact I].
    + intro k. cbn. now rewrite IN.
    + destruct (attached s); reflexivity.
  - destruct (existsb _ _) eqn:EX; [|discriminate]. destruct (busy s w) eqn:BW; [discriminate|]. injection E as <- <-. unfold settled, due. cbn. rewrite set_busy_same, BW.
    set (rest := filter (fun k => negb (k =? c)) (attached s)). split; [split|].
    + destruct rest; [reflexivity|exact I].
    + intro k. unfold rest. rewrite filter_In, IN, !in_map_iff. split.
      * intros ((x & <- & H) & N). exists x. split; [reflexivity|]. apply filter_In. auto.
      * intros (x & <- & H). apply filter_In in H. split; [exists x; tauto|tauto].
    + assert (attached s <> []).
      { apply existsb_exists in EX. destruct EX as (x & H & EQ). intro Z. assert (X : In (fst x) (attached s)) by (apply IN; now apply in_map). now rewrite Z in X. }
      destruct rest; destruct (attached s); try reflexivity; congruence.
  - destruct (busy s w) as [n|] eqn:BW; [|discriminate]. injection E as <- <-. unfold settled, due. cbn. rewrite set_busy_same, BW. split; [split; [exact I|exact IN]|]. split; [reflexivity|].
    destruct n; destruct (attached s); congruence.
Qed.
Lemma crun_due w es : forall s s' o, crun s es = Some (s', o) -> ~ In CClose es -> one_worker w es -> settled w s -> settled w s' /\ alternate (due w s) o /\
  (due w s' = if Nat.even (length o) then due w s else match due w s with First => Last | Last => First end).
Proof.
  induction es as [|e es IH]; intros s s' o R NC OW SE; [injection R as <- <-; cbn; auto|].
  apply crun_cons in R. destruct R as (s1 & o1 & o' & S & R & ->). apply Forall_cons_iff in OW. destruct OW as (OW1 & OW2).
  destruct (cstep_due w _ _ _ _ S) as (SE1 & D); [intros ->; apply NC; now left|constructor; auto|exact SE|].
  destruct (IH _ _ _ R) as (SE2 & A & LE); [intro; apply NC; now right|exact OW2|exact SE1|]. split; [exact SE2|].
  destruct o1 as [|n [|? ?]]; [cbn; rewrite <- D; auto| |destruct D]. destruct D as (-> & D). cbn [app alternate length]. rewrite D in *. split.
  - destruct (due w s); exact A.
  - rewrite LE, Nat.even_succ, <- Nat.negb_even. destruct (Nat.even (length o')); cbn; destruct (due w s); reflexivity.
Qed.
