(** Proofs about client subscriptions: flow control and connection events. *)
From Coq Require Import List Bool Arith Lia.
From Verif Require Import ClientMonModel ClientMonSpec ClientMonProofs ClientMonProofs2.
Import ListNotations.

Section Mon.
  Variable V : Type.
  Variable assign : V -> V -> V.
  Variable g : config.
  Notation sub := (sub V). Notation entry := (entry V). Notation event := (event V). Notation out := (out V).
  Notation step := (step V assign g). Notation run := (run V assign g). Notation new := (new_sub V).
  Notation queue := (queue V). Notation st := (st V). Notation calling := (calling V). Notation unack := (unack V). Notation timer := (timer V). Notation pending := (ack_pending V).
  Notation want_notify := (want_notify V). Notation push := (push V). Notation took := (took V g). Notation pop_loop := (pop_loop V g).
  Notation qs := (queue_size g).

  Definition plain (x : out) : Prop := match x with SentInit _ _ | SentAck _ _ => False | _ => True end.
  Lemma fold_plain : forall o w, Forall plain o -> fold_left (sent_window V) o w = w.
  Proof. induction o as [|x o IH]; intros w F; [reflexivity|]. inversion F as [|? ? A B]; subst. cbn. rewrite IH by exact B. destruct x; try contradiction; reflexivity. Qed.

  Definition live (x : state) : bool := match x with Creating | Idle | Running => true | _ => false end.
  Definition over (x : state) : bool := match x with Done | Dead => true | _ => false end.
  Record F (s : sub) (w : nat) : Prop := {
    F_timer : over (st s) = false -> pending s = timer s;
    F_sum : live (st s) = true -> qs <= w + length (queue s) + unack s;
    F_tick : live (st s) = true -> timer s = true \/ unack s < ack_at g \/ qs <= w + length (queue s);
    F_init : st s = Creating -> w = qs
  }.
  Hypothesis PL : pipeline g = true.

  Lemma F_over : forall s w, over (st s) = true -> F s w.
  Proof. intros s w O. constructor; intros X; try congruence; destruct (st s); discriminate. Qed.
  Lemma F_same : forall s s' w, st s' = st s -> unack s' = unack s -> timer s' = timer s -> pending s' = pending s -> length (queue s) <= length (queue s') -> F s w -> F s' w.
  Proof. intros s s' w E1 E2 E3 E4 E5 [A B C D]. constructor; rewrite ?E1, ?E2, ?E3, ?E4; auto; intros L; [specialize (B L); lia|]. destruct (C L) as [X|[X|X]]; [auto|right; left; lia|right; right; lia]. Qed.
  Lemma F_took : forall s w e q, queue s = e :: q -> F s w -> F (took q s) w.
  Proof.
    intros s w e q Q [A B C D]. unfold ClientMonModel.took. rewrite PL. rewrite Q in *. cbn [length] in *.
    constructor; cbn [ClientMonModel.st ClientMonModel.queue ClientMonModel.unack ClientMonModel.timer ack_pending]; auto.
    - intros O. rewrite (A O). reflexivity.
    - intros L. specialize (B L). lia.
    - intros L. assert (O : over (st s) = false) by (destruct (st s); try discriminate; reflexivity). rewrite (A O) in *.
      destruct (timer s); cbn; [auto|]. destruct (Nat.leb_spec (ack_at g) (S (unack s))); [auto|]. right. left. lia.
  Qed.
  Lemma F_loop : forall n first s w, F s w -> F (fst (pop_loop n first s)) w.
  Proof. intros n first s w. apply (loop_ind V g (fun s => F s w)); [intros s' e q; apply F_took|]. intros s' _. apply F_same; auto. Qed.
  Lemma loop_plain : forall n first s, Forall plain (snd (pop_loop n first s)).
  Proof. intros. apply Forall_forall. intros x X. apply loop_out in X as [(e & ->)|[-> |(b & ->)]]; exact Logic.I. Qed.
  Lemma takes_not : forall s e, takes_update V s e = true -> exists d, e = Update V false true d /\ (st s = Idle \/ st s = Running) /\ known V s = true /\ calling s = false.
  Proof.
    intros s e. destruct e as [| | | |[] [] d| | | | | |]; try discriminate; cbn; destruct (st s); try discriminate; intros X; apply andb_prop in X as (X & Y); apply negb_true_iff in Y; eauto 7.
  Qed.
  Lemma F_step : forall s w e, F s w -> polite V s w e ->
    F (fst (step s e)) (fold_left (sent_window V) (snd (step s e)) (if takes_update V s e then pred w else w)).
  Proof.
    intros s w e H PO. destruct (takes_update V s e) eqn:T.
    - destruct (PO T) as (W & ND). destruct (takes_not _ _ T) as (d & -> & S & K & NC). unfold ClientMonModel.step. rewrite NC.
      destruct (update_shape V assign g false true d s K S) as (s4 & -> & (E1 & E2 & E3 & E4 & _) & Q). cbn [orb negb fst snd fold_left]. specialize (Q PL). cbn [negb] in Q.
      specialize (ND d eq_refl). destruct d as [v|]; [|congruence]. rewrite app_nil_r in Q. assert (QL : length (queue s4) = Datatypes.S (length (queue s))) by (rewrite Q, app_length; cbn; lia).
      destruct H as [A B C D]. constructor; rewrite ?E1, ?E2, ?E3, ?E4, ?QL; auto.
      + intros L. specialize (B L). lia.
      + intros L. destruct (C L) as [X|[X|X]]; [auto|right; left; lia|right; right; lia].
      + intros X. destruct S; congruence.
    - unfold ClientMonModel.step. destruct e as [ok| | |ok th|f ok d| |p| | | |n].
      all: try (destruct (calling s) eqn:CL; [exact H|]).
      + unfold build. destruct (st s) eqn:S; cbn [fst snd fold_left]; try exact H. destruct ok; [|apply F_over; reflexivity].
        destruct H as [A B C D]. constructor; cbn; try discriminate. intros _. apply A. rewrite S. reflexivity.
      + unfold create. destruct (st s) eqn:S; cbn [fst snd fold_left]; try exact H. rewrite PL. cbn [sent_window].
        set (s1 := if mask_conn g then _ else _).
        assert (K : st s1 = Creating /\ pending s1 = pending s /\ timer s1 = timer s) by (unfold s1; destruct (mask_conn g); [auto|]; unfold ClientMonModel.want_notify; destruct (empty V _); auto).
        destruct K as (K1 & K2 & K3). destruct H as [A B C D]. constructor; cbn [ClientMonModel.st ClientMonModel.queue ClientMonModel.unack ClientMonModel.timer ack_pending set_window]; auto; try lia.
        rewrite K2, K3. intros _. apply A. rewrite S. reflexivity.
      + unfold lost. set (s0 := set_known V false s).
        assert (K : over (st s) = false -> F (set_st V Connecting (if mask_discon g then s0 else push (Exc V Disconnect) (want_notify (empty V s0) s0))) w).
        { intros O. constructor; cbn; try discriminate. intros _. destruct H as [A _ _ _]. specialize (A O). destruct (mask_discon g); [exact A|]. unfold ClientMonModel.want_notify. destruct (empty V s0); exact A. }
        destruct (st s) eqn:S; cbn [fst snd fold_left]; try (apply K; reflexivity); apply (F_same s); auto.
      + unfold init_reply. destruct (known V s); cbn [negb]; [|exact H]. destruct (st s) eqn:S; cbn [fst snd fold_left sent_window]; try exact H.
        destruct H as [A B C D]. rewrite S in *. cbn in A, B, C.
        destruct ok, th; cbn [negb]; try (rewrite fold_plain; [apply F_over; cbn; rewrite PL; reflexivity|unfold finish; repeat constructor]).
        destruct (autostart g); cbn [fst snd pause fold_left sent_window set_st ClientMonModel.st]; (constructor; cbn; auto; discriminate).
      + destruct (update_cases V assign g f ok d s) as [(-> & _)|[(-> & _)|(K & S)]]; [exact H|exact H|].
        destruct (update_shape V assign g f ok d s K S) as (s4 & -> & _).
        destruct (f || negb ok) eqn:FO.
        * rewrite fold_plain; [apply F_over; cbn; rewrite PL; reflexivity|]. unfold finish. destruct f; repeat constructor.
        * apply orb_false_iff in FO as (-> & FO). apply negb_false_iff in FO. subst ok. exfalso. cbn in T. rewrite K, CL in T. destruct S as [S|S]; rewrite S in T; discriminate.
      + destruct (timer s) eqn:TM; [|exact H]. unfold tick. rewrite PL. cbn [andb fst snd].
        destruct H as [A B C D]. destruct (live (st s)) eqn:L.
        2:{ assert (X : (match st s with Idle | Running => negb (unack s =? 0) | _ => false end) = false) by (destruct (st s); try discriminate; reflexivity). rewrite X. cbn [fold_left].
            constructor; cbn; auto; try congruence; intros Y; rewrite Y in L; discriminate. }
        specialize (B eq_refl). specialize (C eq_refl). destruct (st s) eqn:S; try discriminate; cbn [fold_left sent_window].
        * rewrite (D eq_refl) in *. constructor; cbn; auto; rewrite ?S; try discriminate; auto; lia.
        * destruct (Nat.eqb_spec (unack s) 0) as [U|U]; cbn [negb fold_left sent_window]; constructor; cbn; rewrite ?S; auto; try discriminate; lia.
        * destruct (Nat.eqb_spec (unack s) 0) as [U|U]; cbn [negb fold_left sent_window]; constructor; cbn; rewrite ?S; auto; try discriminate; lia.
      + unfold pause. destruct H as [A B C D]. destruct (st s) eqn:S, p; cbn [fst snd fold_left sent_window]; constructor; cbn; rewrite ?S; auto; discriminate.
      + rewrite fold_plain; [|unfold cancel; destruct (st s); repeat constructor]. apply F_over. unfold cancel. destruct (st s); reflexivity.
      + destruct (calling s); [|exact H]. unfold call. cbn [fst snd]. rewrite fold_plain by (destruct (ClientMonModel.cancelled V s); repeat constructor). apply (F_same s); auto.
      + unfold pop. destruct (queue s) eqn:Q; cbn [fst snd fold_left sent_window]; [apply (F_same s); auto|eapply F_took; eassumption].
      + unfold pop_many. rewrite fold_plain by apply loop_plain. apply F_loop. exact H.
  Qed.
  Lemma F_served : forall s w, served V assign g s w -> F s w.
  Proof. induction 1 as [|s w e X IH P]; [|apply F_step; assumption]. constructor; cbn; auto; discriminate. Qed.

  (** ** Without loss of the connection and without Connected: nothing but updates *)
  Hypothesis MC : mask_conn g = true.
  Record G (s : sub) (w : nat) : Prop := {
    G_live : live (st s) = true -> w + length (queue s) + unack s = qs;
    G_pre : st s = Unbuilt \/ st s = Connecting -> queue s = [] /\ unack s = 0;
    G_dead : st s = Dead -> length (queue s) <= 1;
    G_done : st s = Done -> length (queue s) <= qs + 2;
    G_init : st s = Creating -> w = qs
  }.
  Lemma G_took : forall s w e q, queue s = e :: q -> G s w -> G (took q s) w.
  Proof.
    intros s w e q Q [A B C D E]. unfold ClientMonModel.took. rewrite PL. rewrite Q in *. cbn [length] in *.
    constructor; cbn [ClientMonModel.st ClientMonModel.queue ClientMonModel.unack]; auto.
    - intros L. specialize (A L). lia.
    - intros X. destruct (B X) as (Y & _). discriminate.
    - intros X. specialize (C X). lia.
    - intros X. specialize (D X). lia.
  Qed.
  Lemma G_same : forall s s' w, st s' = st s -> unack s' = unack s -> queue s' = queue s -> G s w -> G s' w.
  Proof. intros s s' w E1 E2 E3 [A B C D E]. constructor; rewrite ?E1, ?E2, ?E3; auto. Qed.
  Lemma G_done_of : forall s w, st s = Done -> length (queue s) <= qs + 2 -> G s w.
  Proof. intros s w S Q. constructor; rewrite S; try discriminate; auto. intros [X|X]; discriminate. Qed.
  Lemma G_step : forall s w e, G s w -> polite V s w e -> e <> Lost V ->
    G (fst (step s e)) (fold_left (sent_window V) (snd (step s e)) (if takes_update V s e then pred w else w)).
  Proof.
    intros s w e H PO NL. destruct (takes_update V s e) eqn:T.
    - destruct (PO T) as (W & ND). destruct (takes_not _ _ T) as (d & -> & S & K & NC). unfold ClientMonModel.step. rewrite NC.
      destruct (update_shape V assign g false true d s K S) as (s4 & -> & (E1 & E2 & E3 & E4 & _) & Q). cbn [orb negb fst snd fold_left]. specialize (Q PL). cbn [negb] in Q.
      specialize (ND d eq_refl). destruct d as [v|]; [|congruence]. rewrite app_nil_r in Q. assert (QL : length (queue s4) = Datatypes.S (length (queue s))) by (rewrite Q, app_length; cbn; lia).
      destruct H as [A B C D E]. assert (L : live (st s) = true) by (destruct S as [-> | ->]; reflexivity). specialize (A L).
      constructor; rewrite ?E1, ?E2, ?QL; try (intros X; destruct S; congruence); [intros _; lia|intros [X|X]; destruct S; congruence].
    - unfold ClientMonModel.step. destruct e as [ok| | |ok th|f ok d| |p| | | |n]; [| |congruence|..].
      all: try (destruct (calling s) eqn:CL; [exact H|]).
      + unfold build. destruct (st s) eqn:S; cbn [fst snd fold_left]; try exact H. destruct H as [A B C D E]. destruct (B (or_introl S)) as (B1 & B2). destruct ok.
        * constructor; cbn; try discriminate. auto.
        * constructor; cbn; try discriminate; [intros [X|X]; discriminate|]. rewrite B1. cbn. lia.
      + unfold create. destruct (st s) eqn:S; cbn [fst snd fold_left]; try exact H. rewrite PL, MC. cbn [sent_window].
        destruct H as [A B C D E]. destruct (B (or_intror S)) as (B1 & B2). constructor; cbn; try discriminate; auto; try (rewrite B1, B2; cbn; lia); intros [X|X]; discriminate.
      + unfold init_reply. destruct (known V s); cbn [negb]; [|exact H]. destruct (st s) eqn:S; cbn [fst snd fold_left sent_window]; try exact H.
        destruct H as [A B C D E]. rewrite S in *. cbn in A. specialize (A eq_refl).
        destruct ok, th; cbn [negb]; try (rewrite fold_plain; [apply G_done_of; cbn; rewrite PL; [reflexivity|]; cbn; rewrite ?app_length; cbn; lia|unfold finish; repeat constructor]).
        destruct (autostart g); cbn [fst snd pause fold_left sent_window set_st ClientMonModel.st]; (constructor; cbn; auto; try discriminate; intros [X|X]; discriminate).
      + destruct (update_cases V assign g f ok d s) as [(-> & _)|[(-> & _)|(K & S)]]; [exact H|exact H|].
        destruct (update_shape V assign g f ok d s K S) as (s4 & -> & _ & Q). specialize (Q PL).
        destruct H as [A B C D E]. assert (L : live (st s) = true) by (destruct S as [-> | ->]; reflexivity). specialize (A L).
        destruct (f || negb ok) eqn:FO.
        * rewrite fold_plain; [apply G_done_of; cbn; rewrite PL; [reflexivity|]|]. { cbn. rewrite Q, !app_length. destruct ok, d, f; cbn; lia. } unfold finish. destruct f; repeat constructor.
        * apply orb_false_iff in FO as (-> & FO). apply negb_false_iff in FO. subst ok. exfalso. cbn in T. rewrite K, CL in T. destruct S as [S|S]; rewrite S in T; discriminate.
      + destruct (timer s) eqn:TM; [|exact H]. unfold tick. rewrite PL. cbn [andb fst snd].
        destruct H as [A B C D E]. destruct (st s) eqn:S; cbn [fold_left sent_window]; try (constructor; cbn; rewrite ?S; auto; try discriminate; try (intros [X|X]; discriminate); fail).
        all: specialize (A eq_refl).
        all: destruct (Nat.eqb_spec (unack s) 0) as [U|U]; cbn [negb fold_left sent_window]; constructor; cbn; rewrite ?S; auto; try discriminate; try lia; intros [X|X]; discriminate.
      + unfold pause. destruct H as [A B C D E]. destruct (st s) eqn:S, p; cbn [fst snd fold_left sent_window]; constructor; cbn; rewrite ?S; auto; try discriminate; intros [X|X]; discriminate.
      + rewrite fold_plain; [|unfold cancel; destruct (st s); repeat constructor]. destruct H as [A B C D E].
        unfold cancel. rewrite PL. destruct (st s) eqn:S; cbn [fst].
        * apply G_done_of; [reflexivity|]. cbn. destruct (B (or_introl eq_refl)) as (-> & _). cbn. lia.
        * constructor; cbn; try discriminate; [intros [X|X]; discriminate|auto].
        * apply G_done_of; [reflexivity|]. cbn. destruct (B (or_intror eq_refl)) as (-> & _). cbn. lia.
        * apply G_done_of; [reflexivity|]. cbn. specialize (A eq_refl). lia.
        * apply G_done_of; [reflexivity|]. cbn. specialize (A eq_refl). lia.
        * apply G_done_of; [reflexivity|]. cbn. specialize (A eq_refl). lia.
        * apply G_done_of; [reflexivity|]. cbn. exact (D eq_refl).
      + destruct (calling s); [|exact H]. unfold call. cbn [fst snd]. rewrite fold_plain by (destruct (ClientMonModel.cancelled V s); repeat constructor). apply (G_same s); auto.
      + unfold pop. destruct (queue s) eqn:Q; cbn [fst snd fold_left sent_window]; [apply (G_same s); auto|eapply G_took; eassumption].
      + unfold pop_many. rewrite fold_plain by apply loop_plain.
        apply (loop_ind V g (fun s => G s w)); [intros s' e q; apply G_took| |exact H]. intros s' _. apply G_same; auto.
  Qed.
  Lemma G_once : forall s w, served_once V assign g s w -> G s w.
  Proof. induction 1 as [|s w e X IH P N]; [|apply G_step; assumption]. constructor; cbn; auto; try discriminate. Qed.
End Mon.

(** ** Connection events *)
Section Conn.
  Variable V : Type.
  Variable assign : V -> V -> V.
  Variable g : config.
  Notation sub := (sub V). Notation entry := (entry V). Notation event := (event V). Notation out := (out V).
  Notation step := (step V assign g). Notation run := (run V assign g). Notation new := (new_sub V).
  Notation st := (st V). Notation arrived := (arrived V assign g). Notation arrives := (arrives V g).
  Notation conns := (filter (conn_event V)).

  Lemma merged_conns : forall a b, merged V assign a b -> conns b = conns a.
  Proof.
    induction 1 as [|a b e M IH|a b l v M IH]; [reflexivity| |]; rewrite !filter_app; [rewrite IH; reflexivity|].
    rewrite filter_app in IH. cbn in *. rewrite !app_nil_r in *. exact IH.
  Qed.
  Lemma alternate_snoc : forall l up e, alternate V up l -> e = Exc V (if xorb up (Nat.odd (length l)) then Disconnect else Connected) -> alternate V up (l ++ [e]).
  Proof.
    induction l as [|x l IH]; intros up e A E; cbn in *; [rewrite xorb_false_r in E; auto|]. destruct A as (A & B). split; [exact A|]. apply IH; [exact B|].
    rewrite E. f_equal. change (match length l with O => false | S n' => Nat.even n' end) with (Nat.odd (length l)). rewrite Nat.odd_succ, <- Nat.negb_odd. destruct up, (Nat.odd (length l)); reflexivity.
  Qed.
  Definition before (x : state) : bool := match x with Unbuilt | Connecting | Dead => true | _ => false end.
  Definition Alt (s : sub) (a : list entry) (o : list out) : Prop :=
    alternate V false (conns a) /\ (live (st s) = true -> Nat.odd (length (conns a)) = true) /\ (before (st s) = true -> Nat.odd (length (conns a)) = false).
  Lemma odd_snoc : forall A (l : list A) x, Nat.odd (length (l ++ [x])) = negb (Nat.odd (length l)).
  Proof. intros. rewrite app_length. cbn. rewrite Nat.add_1_r, Nat.odd_succ, <- Nat.negb_odd. reflexivity. Qed.
  Hypothesis MC : mask_conn g = false.
  Hypothesis MD : mask_discon g = false.
  Lemma Alt_same : forall s s' a a' o o', st s' = st s -> conns a' = [] -> Alt s a o -> Alt s' (a ++ a') o'.
  Proof. intros s s' a a' o o' E N (A & B & C). unfold Alt. rewrite filter_app, N, app_nil_r, E. auto. Qed.
  Lemma Alt_done : forall s s' a a' o o', st s' = Done -> conns a' = [] -> Alt s a o -> Alt s' (a ++ a') o'.
  Proof. intros s s' a a' o o' E N (A & B & C). unfold Alt. rewrite filter_app, N, app_nil_r, E. split; [exact A|split; discriminate]. Qed.
  Lemma Alt_move : forall s s' a a' o o', live (st s') = live (st s) -> before (st s') = before (st s) -> conns a' = [] -> Alt s a o -> Alt s' (a ++ a') o'.
  Proof. intros s s' a a' o o' E E' N (A & B & C). unfold Alt. rewrite filter_app, N, app_nil_r, E, E'. auto. Qed.
  Lemma Alt_step : forall s a o e, Alt s a o -> Alt (fst (step s e)) (a ++ arrives s e) (o ++ snd (step s e)).
  Proof.
    intros s a o e H. unfold ClientMonModel.step, ClientMonSpec.arrives. destruct (calling V s) eqn:CL.
    - destruct e; try (eapply Alt_same; [|reflexivity|exact H]; reflexivity).
      + unfold pop. eapply Alt_same; [|reflexivity|exact H]. destruct (queue V s); cbn [fst]; [reflexivity|]. apply took_keeps.
      + unfold pop_many. eapply Alt_same; [|reflexivity|exact H]. apply (loop_ind V g (fun x => st x = st s)); auto. intros s' e q _ <-. apply took_keeps.
    - destruct e as [ok| | |ok th|f ok d| |p| | | |n].
      + unfold build. destruct (st s) eqn:S; try (eapply Alt_same; [|destruct ok; reflexivity|exact H]; cbn; congruence).
        destruct ok; cbn [fst snd]; (eapply Alt_move; [| |reflexivity|exact H]; rewrite S; reflexivity).
      + unfold create. destruct (st s) eqn:S; try (eapply Alt_same; [|reflexivity|exact H]; cbn; congruence). rewrite MC. cbn [fst snd].
        destruct H as (A & B & C). specialize (C ltac:(rewrite S; reflexivity)).
        unfold Alt. rewrite !filter_app. change (conns [Exc V Connected]) with [Exc V Connected]. rewrite odd_snoc, C.
        split; [apply alternate_snoc; [exact A|rewrite C; reflexivity]|].
        set (s1 := push V (Exc V Connected) _). assert (S1 : st s1 = Creating) by (unfold s1; unfold ClientMonModel.want_notify; destruct (empty V _); reflexivity).
        assert (S2 : st (if pipeline g then set_window V (queue_size g) s1 else s1) = Creating) by (destruct (pipeline g); exact S1). rewrite S2. split; [reflexivity|discriminate].
      + unfold lost. rewrite MD.
        assert (K : live (st s) = true -> Alt (set_st V Connecting (push V (Exc V Disconnect) (want_notify V (empty V (set_known V false s)) (set_known V false s)))) (a ++ [Exc V Disconnect]) (o ++ [])).
        { intros L. destruct H as (A & B & C). specialize (B L). unfold Alt. rewrite !filter_app. change (conns [Exc V Disconnect]) with [Exc V Disconnect]. rewrite odd_snoc, B.
          split; [apply alternate_snoc; [exact A|rewrite B; reflexivity]|]. split; [discriminate|reflexivity]. }
        destruct (st s) eqn:S; try (apply K; reflexivity); (eapply Alt_same; [|reflexivity|exact H]; cbn; congruence).
      + unfold init_reply. destruct (known V s); cbn [negb]; [|eapply Alt_same; [|destruct (st s); reflexivity|exact H]; reflexivity].
        destruct (st s) eqn:S; try (eapply Alt_same; [|reflexivity|exact H]; cbn; congruence).
        destruct ok, th; cbn [negb]; try (eapply Alt_done; [|reflexivity|exact H]; cbn; destruct (pipeline g); reflexivity).
        destruct (autostart g); cbn; (eapply Alt_move; [| |reflexivity|exact H]; rewrite S; reflexivity).
      + assert (AR : conns (match st s with Idle | Running => if negb (known V s) then [] else (if negb ok then [Exc V Remote] else match d with Some v => [Data V v] | None => [] end) ++ (if f then [Exc V Finished] else []) | _ => [] end) = [])
          by (destruct (st s), (known V s), ok, d, f; reflexivity).
        destruct (update_cases V assign g f ok d s) as [(-> & _)|[(-> & _)|(K & S)]]; try (eapply Alt_same; [reflexivity|exact AR|exact H]).
        destruct (update_shape V assign g f ok d s K S) as (s4 & -> & (E1 & _) & _).
        destruct (f || negb ok); cbn [fst snd]; [eapply Alt_done; [cbn; destruct (pipeline g); reflexivity|exact AR|exact H]|eapply Alt_same; [exact E1|exact AR|exact H]].
      + eapply Alt_same; [|reflexivity|exact H]. destruct (timer V s); reflexivity.
      + unfold pause. destruct (st s) eqn:S, p; cbn [fst snd]; (eapply Alt_move; [| |reflexivity|exact H]; cbn; rewrite ?S; reflexivity).
      + unfold cancel. destruct (st s) eqn:S; cbn [fst snd]; try (eapply Alt_done; [reflexivity|reflexivity|exact H]). eapply Alt_same; [|reflexivity|exact H]. cbn. congruence.
      + eapply Alt_same; [|reflexivity|exact H]. reflexivity.
      + unfold pop. eapply Alt_same; [|reflexivity|exact H]. destruct (queue V s); cbn [fst]; [reflexivity|]. apply took_keeps.
      + unfold pop_many. eapply Alt_same; [|reflexivity|exact H]. apply (loop_ind V g (fun x => st x = st s)); auto. intros s' e q _ <-. apply took_keeps.
  Qed.
  Lemma Alt_reach : forall es, alternate V false (conns (arrived new es)).
  Proof.
    intros es. refine (proj1 (run_ind_end V assign g Alt new _ _ es)); [repeat split; cbn; auto; discriminate|]. intros. apply Alt_step. assumption.
  Qed.
End Conn.

(** ** The connection is not ended *)
Section Honest.
  Variable V : Type.
  Variable assign : V -> V -> V.
  Variable g : config.
  Notation sub := (sub V). Notation event := (event V). Notation out := (out V).
  Notation step := (step V assign g). Notation st := (st V). Notation known := (known V).

  Record Hon (s : sub) (asked accepted : bool) : Prop := {
    Hon_asked : known s = true -> asked = true -> st s = Creating;
    Hon_accepted : known s = true -> accepted = true -> st s = Idle \/ st s = Running;
    Hon_before : st s = Unbuilt \/ st s = Connecting -> known s = false /\ accepted = false /\ asked = false
  }.
  Lemma Hon_same : forall s s' a b, st s' = st s -> known s' = known s -> Hon s a b -> Hon s' a b.
  Proof. intros s s' a b E1 E2 [A B C]. constructor; rewrite ?E1, ?E2; auto. Qed.
  Lemma Hon_forgot : forall s a b, known s = false -> st s <> Unbuilt -> st s <> Connecting -> Hon s a b.
  Proof. intros s a b K X Y. constructor; try congruence. intros [Z|Z]; congruence. Qed.
  Lemma hon_step : forall s a b, honest V assign g (fun s e => e = Cancel V -> st s <> Creating) s a b -> Hon s a b.
  Proof.
    intros s a b H. induction H as [|s a b e _ IH AL CA]; [constructor; cbn; auto; discriminate|].
    unfold ClientMonModel.step. destruct e as [ok| | |ok th|f ok d| |p| | | |n].
    all: try (destruct (calling V s) eqn:CL).
    all: try (cbn [fst snd sent_init existsb]; rewrite ?orb_false_r; exact IH).
    - unfold build. destruct (st s) eqn:S; try exact IH. destruct IH as [A B C]. destruct (C (or_introl S)) as (C1 & C2 & C3).
      destruct ok; (constructor; cbn; intros; try congruence; auto).
    - unfold create. destruct (st s) eqn:S; cbn [fst snd]; try (cbn [sent_init existsb]; rewrite orb_false_r; exact IH).
      destruct IH as [A B C]. destruct (C (or_intror S)) as (C1 & C2 & C3).
      set (s1 := if mask_conn g then _ else _). set (s2 := if pipeline g then set_window V (queue_size g) s1 else s1).
      assert (S1 : st s1 = Creating) by (unfold s1; destruct (mask_conn g); [reflexivity|]; unfold want_notify; destruct (empty V _); reflexivity).
      assert (S2 : st s2 = Creating) by (unfold s2; destruct (pipeline g); exact S1).
      constructor; rewrite S2, ?C2; auto; try discriminate. intros [X|X]; discriminate.
    - unfold lost. assert (L : forall s', known s' = false -> Hon s' false false) by (intros s' K; constructor; try congruence; auto).
      destruct (st s); cbn [fst snd]; apply L; try reflexivity; (destruct (mask_discon g); [reflexivity|]; unfold want_notify; destruct (empty V _); reflexivity).
    - unfold init_reply. destruct IH as [A B C]. destruct (known s) eqn:K; cbn [negb].
      + rewrite (A eq_refl AL). destruct ok; cbn [negb].
        * destruct th; [apply Hon_forgot; unfold finish; destruct (pipeline g); cbn; congruence|].
          destruct (autostart g); cbn; (constructor; cbn; auto; try discriminate; intros [X|X]; discriminate).
        * apply Hon_forgot; unfold finish, want_notify; destruct (pipeline g); cbn; congruence.
      + cbn [fst]. constructor; try congruence. intros X. destruct (C X) as (C1 & C2 & C3). cbn in AL. congruence.
    - destruct (update_cases V assign g f ok d s) as [(-> & _)|[(-> & _)|(K & S)]]; [exact IH|exact IH|].
      destruct (update_shape V assign g f ok d s K S) as (s4 & -> & (E1 & _ & _ & _ & _ & E6) & _).
      destruct (f || negb ok); cbn [fst snd]; [apply Hon_forgot; unfold finish; destruct (pipeline g); cbn; congruence|]. eapply Hon_same; eassumption.
    - destruct (timer V s); [|exact IH]. eapply Hon_same; [| |exact IH]; reflexivity.
    - unfold pause. destruct IH as [A B C]. destruct (st s) eqn:S, p; cbn [fst]; try (constructor; rewrite S; assumption);
        (constructor; cbn; [intros K X; specialize (A K X); discriminate|auto|intros [X|X]; discriminate]).
    - unfold cancel. specialize (CA eq_refl). destruct IH as [A B C]. destruct (st s) eqn:S; cbn [fst]; try contradiction.
      1: destruct (C (or_introl eq_refl)) as (C1 & _). 3: destruct (C (or_intror eq_refl)) as (C1 & _).
      all: try (apply Hon_forgot; cbn; congruence).
      + constructor; cbn; [intros K X; specialize (A K X); congruence|intros K X; destruct (B K X); congruence|intros [X|X]; discriminate].
      + constructor; cbn; [intros K X; specialize (A K X); congruence|intros K X; destruct (B K X); congruence|intros [X|X]; discriminate].
    - unfold call. eapply Hon_same; [| |exact IH]; reflexivity.
    - unfold pop. destruct (queue V s); cbn [fst]; (eapply Hon_same; [| |exact IH]); try reflexivity; apply took_keeps.
    - unfold pop. destruct (queue V s); cbn [fst]; (eapply Hon_same; [| |exact IH]); try reflexivity; apply took_keeps.
    - unfold pop_many. apply (loop_ind V g (fun s => Hon s a b)); [intros s' e q _ X; eapply Hon_same; [| |exact X]; apply took_keeps|intros s' _ X; eapply Hon_same; [| |exact X]; reflexivity|exact IH].
    - unfold pop_many. apply (loop_ind V g (fun s => Hon s a b)); [intros s' e q _ X; eapply Hon_same; [| |exact X]; apply took_keeps|intros s' _ X; eapply Hon_same; [| |exact X]; reflexivity|exact IH].
  Qed.
  Lemma hon_no_hang : forall s a b e, Hon s a b -> allowed V a b e -> ~ In (HangUp V) (snd (step s e)).
  Proof.
    intros s a b e [A B C] AL. unfold ClientMonModel.step.
    destruct e as [ok| | |ok th|f ok d| |p| | | |n].
    all: try (destruct (calling V s) eqn:CL; [intros []|]).
    - unfold build. destruct (st s), ok; intros [].
    - unfold create. destruct (st s); cbn [snd]; try (intros []; fail). intros [X|[]]. discriminate.
    - unfold lost. destruct (st s); intros [].
    - unfold init_reply. destruct (known s) eqn:K; [|intros []]. cbn [negb]. rewrite (A eq_refl AL).
      destruct ok, th; cbn; try (intros [X|[]]; discriminate). destruct (autostart g); cbn; [intros [X|[]]; discriminate|auto]. 
    - destruct (update_cases V assign g f ok d s) as [(-> & _)|[(E & N1 & N2)|(K & S)]]; [intros []| |].
      + rewrite E. intros _. assert (K : known s = true) by (destruct (known s) eqn:K; [reflexivity|]; rewrite update_none in E by exact K; discriminate).
        destruct (B K AL); contradiction.
      + destruct (update_shape V assign g f ok d s K S) as (s4 & -> & _). destruct (f || negb ok); [|intros []]. unfold finish. destruct f; cbn; [auto|intros [X|[]]; discriminate].
    - destruct (timer V s); [|intros []]. unfold tick. cbn [snd]. destruct (match st s with Idle | Running => _ | _ => _ end); [intros [X|[]]; discriminate|intros []].
    - unfold pause. destruct (st s), p; cbn; auto; intros [X|[]]; discriminate.
    - unfold cancel. destruct (st s); cbn; auto; intros [X|[]]; discriminate.
    - destruct (calling V s); [|intros []]. unfold call. destruct (cancelled V s); cbn; [auto|intros [X|[]]; discriminate].
    - unfold pop. destruct (queue V s); intros [X|[]]; discriminate.
    - intros X. apply loop_out in X as [(e & X)|[X|(x & X)]]; discriminate.
  Qed.
End Honest.

(** ** What is acknowledged; masks *)
Section Ack.
  Variable V : Type.
  Variable assign : V -> V -> V.
  Variable g : config.
  Notation sub := (sub V). Notation entry := (entry V). Notation event := (event V). Notation out := (out V).
  Notation step := (step V assign g). Notation run := (run V assign g). Notation new := (new_sub V).
  Notation arrived := (arrived V assign g). Notation popped := (popped V). Notation acked := (acked V). Notation unack := (unack V).

  Lemma acked_app : forall a b, acked (a ++ b) = acked a + acked b.
  Proof. induction a as [|x a IH]; intros b; [reflexivity|]. specialize (IH b). unfold ClientMonSpec.acked in *. cbn [app fold_right]. destruct x; lia. Qed.
  Hypothesis PL : pipeline g = true.
  Lemma loop_acked : forall n first s, acked (snd (pop_loop V g n first s)) = 0 /\ unack (fst (pop_loop V g n first s)) = unack s + length (popped (snd (pop_loop V g n first s))).
  Proof.
    induction n as [|n IH]; intros first s; cbn [pop_loop]; [cbn; lia|].
    destruct (queue V s) as [|[v|x] q] eqn:Q; [cbn; lia| |].
    - specialize (IH false (took V g q s)). assert (T : unack (took V g q s) = S (unack s)) by (unfold took; rewrite PL; reflexivity).
      destruct (pop_loop V g n false (took V g q s)) as [s' o]. cbn [fst snd] in *.
      change (acked (Popped V (Data V v) :: o)) with (acked o). change (popped (Popped V (Data V v) :: o)) with (Data V v :: popped o). cbn [length]. lia.
    - destruct first; cbn; [|lia]. unfold took. rewrite PL. cbn. lia.
  Qed.
  Lemma acked_step : forall s e, acked (snd (step s e)) + unack (fst (step s e)) = unack s + length (popped (snd (step s e))).
  Proof.
    intros s e. unfold ClientMonModel.step. destruct e as [ok| | |ok th|f ok d| |p| | | |n].
    all: try (destruct (calling V s) eqn:CL; [cbn; lia|]).
    - unfold build. destruct (st V s), ok; cbn; lia.
    - unfold create. rewrite PL. destruct (st V s); cbn; try lia. destruct (mask_conn g); cbn; [lia|]. unfold want_notify. destruct (empty V _); cbn; lia.
    - unfold lost. destruct (st V s); cbn; try lia; (destruct (mask_discon g); cbn; [lia|]; unfold want_notify; destruct (empty V _); cbn; lia).
    - unfold init_reply. destruct (known V s); [|cbn; lia]. destruct (st V s); try (cbn; lia). unfold finish. rewrite PL. destruct ok, th; cbn; try lia. destruct (autostart g); cbn; lia.
    - destruct (update_cases V assign g f ok d s) as [(-> & _)|[(-> & _)|(K & S)]]; [cbn; lia|cbn; lia|].
      destruct (update_shape V assign g f ok d s K S) as (s4 & -> & (_ & E & _) & _). unfold finish. rewrite PL. destruct (f || negb ok); [|cbn; lia]. destruct f; cbn; lia.
    - destruct (timer V s); [|cbn; lia]. unfold tick. cbn [fst snd]. set (act := match st V s with Idle | Running => _ | _ => _ end).
      cbn [ClientMonModel.unack]. destruct act; cbn; lia.
    - unfold pause. destruct (st V s), p; cbn; lia.
    - unfold cancel. rewrite PL. destruct (st V s); cbn; lia.
    - destruct (calling V s); [|cbn; lia]. unfold call. destruct (cancelled V s); cbn; lia.
    - unfold pop. destruct (queue V s) eqn:Q; cbn [fst snd]; [cbn; lia|]. unfold took. rewrite PL. cbn. lia.
    - unfold pop_many. destruct (loop_acked (if n =? 0 then queue_size g else n) true s). lia.
  Qed.
  Lemma acked_reach : forall es, acked (snd (run new es)) + unack (fst (run new es)) = length (popped (snd (run new es))).
  Proof.
    intros es. apply (run_ind_end V assign g (fun s _ o => acked o + unack s = length (popped o)) new); [reflexivity|].
    intros s a o e H. rewrite acked_app, popped_app, app_length. pose proof (acked_step s e). lia.
  Qed.
End Ack.
Lemma masked_arrived V assign g : forall es s x, x = Connected /\ mask_conn g = true \/ x = Disconnect /\ mask_discon g = true -> ~ In (Exc V x) (arrived V assign g s es).
Proof.
  induction es as [|e es IH]; intros s x M; cbn [arrived]; [intros []|]. rewrite in_app_iff. intros [X|X]; [|exact (IH _ _ M X)].
  unfold arrives in X. destruct (calling V s); [exact X|].
  destruct M as [(-> & M)|(-> & M)]; rewrite ?M in X; destruct e as [[]| | |[] []|[] [] []| |[]| | | |]; destruct (st V s); cbn in X;
    try destruct (known V s); try destruct (mask_conn g); try destruct (mask_discon g); cbn in X; intuition discriminate.
Qed.
