(** Proofs about server side subscriptions. *)
From Coq Require Import List Bool Arith Lia.
From Verif Require Import ServerMonModel ServerMonSpec.
Import ListNotations.

Section Proofs.
  Variable U : Type.
  Variable real : U -> bool.
  Variable squash : U -> U -> U.
  Notation mon := (mon U).
  Notation event := (event U).
  Notation output := (output U).
  Notation step := (step U real squash).
  Notation run := (run U real squash).
  Notation pending := (pending U).
  Notation pending_of := (pending_of U).
  Notation sent := (sent U).

  Lemma pending_app a b : pending_of (a ++ b) = pending_of a ++ pending_of b.
  Proof. induction a as [|[u|] a IH]; cbn; [reflexivity| |]; now rewrite ?IH. Qed.
  Lemma sent_app a b : sent (a ++ b) = sent a ++ sent b.
  Proof. induction a as [|x a IH]; cbn; [reflexivity|]. destruct x; cbn; now rewrite ?IH. Qed.
  Lemma lastn_spec {A} (l : list A) q x : lastn l = Some (q, x) <-> l = q ++ [x].
  Proof.
    unfold lastn. destruct (rev l) as [|y r] eqn:E.
    - split; [discriminate|]. intro H. apply (f_equal (@rev A)) in H. rewrite E, rev_app_distr in H. discriminate.
    - split.
      + intro H. injection H as <- <-. rewrite <- (rev_involutive l), E. reflexivity.
      + intro H. apply (f_equal (@rev A)) in H. rewrite E, rev_app_distr in H. cbn in H. injection H as -> ->. now rewrite rev_involutive.
  Qed.
  Lemma lastn_none {A} (l : list A) : lastn l = None -> l = [].
  Proof. unfold lastn. destruct (rev l) eqn:E; [|discriminate]. intros _. rewrite <- (rev_involutive l), E. reflexivity. Qed.

  (** ** Invariant *)
  Definition is_reply (t : task) : bool := match t with TTry | TReply => true | _ => false end.
  Definition replies (l : list task) : nat := length (filter is_reply l).
  Arguments replies : simpl never.
  Definition count (m : mon) : nat := replies (tasks U m) + replies (backlog U m).

  Record inv0 (m : mon) : Prop := {
    i_limit : 1 <= limit U m;
    i_queue : exists us, queue U m = map Some us \/ (finished U m = true /\ queue U m = map Some us ++ [None]);
    i_fin : finished U m = true -> queue U m = [] \/ exists us, queue U m = map Some us ++ [None];
    i_typed : typed U m = false -> queue U m = [] /\ scheduled U m = false /\ finished U m = false;
    i_creating : st U m = Creating -> queue U m = [] /\ scheduled U m = false /\ finished U m = false /\ mid U m = false;
    i_sched : scheduled U m = true -> queue U m <> [];
    i_dead : alive U m = false -> st U m = Dead;
    i_backlog : Forall (fun t => t = TReply) (backlog U m)
  }.
  Definition inv (m : mon) : Prop :=
    inv0 m /\ (alive U m = true -> count m = if scheduled U m then 1 else 0) /\ (st U m = Creating -> typed U m = false).

  Lemma replies_app a b : replies (a ++ b) = replies a + replies b.
  Proof. unfold replies. now rewrite filter_app, app_length. Qed.

  Ltac crush :=
    repeat match goal with
    | H : _ /\ _ |- _ => destruct H
    | H : exists _, _ |- _ => destruct H
    | |- _ /\ _ => split
    end; auto; try congruence; try lia.

  Lemma queue_tail (fin : bool) (e : option U) q :
    (exists us, e :: q = map Some us \/ (fin = true /\ e :: q = map Some us ++ [None])) ->
    (fin = true -> e :: q = [] \/ exists us, e :: q = map Some us ++ [None]) ->
    (exists us, q = map Some us \/ (fin = true /\ q = map Some us ++ [None])) /\
    (fin = true -> q = [] \/ exists us, q = map Some us ++ [None]) /\
    (e = None -> q = [] /\ fin = true).
  Proof.
    intros (us & H) F. split; [|split].
    - destruct us as [|u us].
      + destruct H as [H|(H & X)]; [discriminate|]. cbn in X. injection X as -> ->. exists []. now left.
      + destruct H as [H|(H & X)]; [|cbn in X]; [cbn in H|]; [injection H as -> ->|injection X as -> ->]; exists us; auto.
    - intro T. destruct (F T) as [X|(vs & X)]; [discriminate|]. destruct vs as [|v vs]; cbn in X; injection X as -> ->; [now left|right; eauto].
    - intros ->. destruct us as [|u us].
      + destruct H as [H|(H & X)]; [discriminate|]. cbn in X. injection X as ->. auto.
      + destruct H as [H|(H & X)]; [|cbn in X]; discriminate.
  Qed.

  Lemma cleanup_inv m m' o : inv0 m -> cleanup U m = (m', o) ->
    inv0 m' /\ tasks U m' = tasks U m /\ backlog U m' = backlog U m /\ st U m' = Dead /\ scheduled U m' = scheduled U m /\
    queue U m' = queue U m /\ sent o = [] /\ alive U m' = alive U m /\ finished U m' = finished U m /\ window U m' = window U m /\ pipeline U m' = pipeline U m /\ limit U m' = limit U m /\
    maxqueue U m' = maxqueue U m /\ nsquash U m' = nsquash U m /\ mid U m' = mid U m /\ typed U m' = typed U m /\ ~ In (OFinish U) o /\ ~ In (OEmpty U) o /\ ~ In (OAssert U) o.
  Proof.
    intros [] E. unfold cleanup in E. destruct (state_eqb (st U m) Dead) eqn:S.
    - injection E as <- <-. destruct (st U m) eqn:X; try discriminate. cbn. split; [|crush]. constructor; cbn; auto; rewrite X; discriminate.
    - injection E as <- <-. split; [constructor; cbn; auto; discriminate|]. cbn.
      destruct (state_eqb (st U m) Executing && onstart U m); cbn; repeat split; auto; intros [X|X]; try discriminate; auto.
  Qed.

  (** fields which only posts and messages change *)
  Definition frame (m m' : mon) : Prop :=
    limit U m' = limit U m /\ finished U m' = finished U m /\ pipeline U m' = pipeline U m /\ maxqueue U m' = maxqueue U m /\
    nsquash U m' = nsquash U m /\ typed U m' = typed U m /\ alive U m' = alive U m /\ mid U m' = mid U m /\ backlog U m' = backlog U m.
  Definition ready (m : mon) : Prop :=
    alive U m = true /\ st U m = Executing /\ queue U m <> [] /\ (pipeline U m = false \/ window U m <> 0 \/ finished U m = true).

  Lemma state_eqb_eq a b : state_eqb a b = true <-> a = b.
  Proof. destruct a, b; cbn; split; congruence. Qed.
  Lemma nonempty_ne {A} (l : list A) : nonempty l = true <-> l <> [].
  Proof. destruct l; cbn; split; congruence. Qed.

  Lemma reply_rest_ok m s q m' o :
    reply_rest U m s q = (m', o) -> scheduled U m = false ->
    frame m m' /\ queue U m' = q /\
    (st U m = Dead -> st U m' = Dead /\ window U m' = window U m /\ tasks U m' = tasks U m /\ scheduled U m' = false /\ exists r, o = s :: r /\ r = []) /\
    (st U m <> Dead -> o = [s] /\ st U m' = st U m /\ mapped U m' = mapped U m /\
       window U m' = (if state_eqb (st U m) Executing && pipeline U m then window U m - 1 else window U m) /\
       replies (tasks U m') = replies (tasks U m) + (if scheduled U m' then 1 else 0) /\
       (scheduled U m' = true -> q <> [] /\ st U m' = Executing) /\ (ready m' -> scheduled U m' = true)).
  Proof.
    intros E SC. unfold reply_rest in E. cbn [st set_queue] in E. destruct (state_eqb (st U m) Dead) eqn:D.
    - apply state_eqb_eq in D. unfold cleanup in E. cbn [st set_queue] in E. rewrite D in E. cbn in E. injection E as <- <-.
      cbn. repeat split; auto; try congruence. eauto.
    - assert (ND : st U m <> Dead) by (intro X; apply state_eqb_eq in X; congruence).
      set (m1 := use_window U _) in E.
      assert (M1 : frame m m1 /\ queue U m1 = q /\ st U m1 = st U m /\ mapped U m1 = mapped U m /\ scheduled U m1 = false /\
        window U m1 = (if state_eqb (st U m) Executing && pipeline U m then window U m - 1 else window U m) /\
        replies (tasks U m1) = replies (tasks U m)).
      { unfold m1, use_window. cbn. destruct (state_eqb (st U m) Executing && pipeline U m) eqn:C1; cbn [andb].
        - destruct (window U m =? 0) eqn:W; cbn [negb].
          + apply Nat.eqb_eq in W. cbn. repeat split; auto. lia.
          + match goal with |- context [if ?b then _ else _] => destruct b eqn:? end; cbn; repeat split; auto.
            rewrite replies_app. unfold replies. cbn. lia.
        - cbn. repeat split; auto. }
      clearbody m1. destruct M1 as ((F1 & F2 & F3 & F4 & F5 & F6 & F7 & F8 & F9) & Q & S1 & MP & SC1 & W1 & T1). unfold again in E.
      split; [|split].
      + destruct (state_eqb (st U m1) Executing && _ && _) in E; injection E as <- <-; cbn; repeat split; auto.
      + destruct (state_eqb (st U m1) Executing && _ && _) in E; injection E as <- <-; cbn; auto.
      + split; [intro X; congruence|]. intros _.
        destruct (state_eqb (st U m1) Executing && nonempty (queue U m1) && (negb (pipeline U m1) || negb (window U m1 =? 0) || finished U m1)) eqn:C2;
          injection E as <- <-; cbn.
        * apply andb_prop in C2. destruct C2 as (C2 & C3). apply andb_prop in C2. destruct C2 as (C2 & C4). apply nonempty_ne in C4. apply state_eqb_eq in C2.
          repeat split; auto; try congruence. rewrite replies_app, T1. unfold replies. cbn. lia.
        * rewrite SC1. repeat split; auto; try congruence; try lia. intros (A & B & C & D'). exfalso.
          apply not_true_iff_false in C2. apply C2. rewrite B, F2 in *. cbn. apply andb_true_intro. split; [now apply nonempty_ne|].
          destruct D' as [X|[X|X]]; [rewrite X; reflexivity| |rewrite X, orb_true_r; reflexivity].
          apply Nat.eqb_neq in X. rewrite X. now rewrite orb_true_r.
  Qed.

  (** what doReply() may do *)
  Inductive reply_effect (m m' : mon) (o : list output) : Prop :=
  | RNone : o = [] -> queue U m' = queue U m -> window U m' = window U m -> st U m' = st U m ->
      (ready m' -> False) -> reply_effect m m' o
  | RInit ok : o = [OInit U ok] -> ok = typed U m -> queue U m' = queue U m -> window U m' = window U m -> st U m = Creating ->
      st U m' = (if ok then Idle else Dead) -> reply_effect m m' o
  | RUpdate u : o = [OUpdate U u] -> queue U m = Some u :: queue U m' -> st U m' = st U m ->
      (st U m = Executing /\ (pipeline U m = true -> finished U m = true \/ window U m <> 0) /\
         window U m' = (if pipeline U m then window U m - 1 else window U m)
       \/ st U m = Idle /\ window U m' = window U m) -> reply_effect m m' o
  | RFinish : o = [OFinish U] -> queue U m = None :: queue U m' -> st U m = Executing -> st U m' = Dead ->
      window U m' = window U m -> reply_effect m m' o
  | RGarbled : o = [OGarbled U] -> queue U m = None :: queue U m' -> st U m = Idle -> st U m' = Idle ->
      window U m' = window U m -> reply_effect m m' o
  | REmpty : o = [OEmpty U] -> queue U m = [] -> st U m = Idle -> reply_effect m m' o.

  Lemma do_reply_ok m m' o : do_reply U m = (m', o) -> inv0 m -> (alive U m = true -> count m = 0) -> (st U m = Idle -> alive U m = true -> queue U m <> []) ->
    inv m' /\ frame m m' /\ reply_effect m m' o /\ o <> [OEmpty U] /\ (ready m' -> scheduled U m' = true) /\
    (alive U m = true -> scheduled U m' = true -> st U m' = Executing).
  Proof.
    intros E I C QN. unfold do_reply in E. destruct (alive U m) eqn:A; cbn [negb] in E.
    2:{ injection E as <- <-. split; [split; [exact I|split; [congruence|intro X; destruct I; rewrite i_dead0 in X; congruence]]|]. split; [repeat split; auto|].
        split; [apply RNone; auto; intros (X & _); congruence|]. split; [discriminate|]. split; [intros (X & _); congruence|congruence]. }
    specialize (C eq_refl). destruct I. cbn [st set_scheduled] in E.
    destruct (st U m) eqn:S.
    - (* Creating *)
      destruct (i_creating0 eq_refl) as (Q & SC & F & MD). cbn [typed set_scheduled queue] in E.
      apply reply_rest_ok in E; [|reflexivity]. destruct E as ((F1 & F2 & F3 & F4 & F5 & F6 & F7 & F8 & F9) & Q' & D & D').
      cbn in *. assert (H : o = [OInit U (typed U m)] /\ st U m' = (if typed U m then Idle else Dead) /\ window U m' = window U m /\
        count m' = 0 /\ scheduled U m' = false).
      { destruct (typed U m).
        - destruct D' as (O & S' & MP & W & TK & SQ & RD); [discriminate|]. cbn in W. unfold count in *. rewrite TK, F9.
          destruct (scheduled U m'); [|repeat split; auto; lia]. exfalso. now apply SQ.
        - destruct (D eq_refl) as (S' & W & TK & SC' & r & O & ->). unfold count in *. rewrite TK, F9. repeat split; auto. }
      destruct H as (O & S' & W & C' & SC').
      split; [|split; [|split; [|split; [|split]]]].
      + split; [|split; [intros _; rewrite SC'; exact C'|intro X; rewrite X in S'; destruct (typed U m); discriminate]].
        constructor; rewrite ?F1, ?F2, ?F6, ?F7, ?F8, ?F9, ?Q', ?SC', ?Q in *; auto; try congruence.
      + repeat split; auto.
      + eapply RInit; eauto.
      + rewrite O. discriminate.
      + intros (_ & X & _). rewrite X in S'. destruct (typed U m); discriminate.
      + congruence.
    - (* Idle *)
      specialize (QN eq_refl eq_refl). cbn [queue set_scheduled] in E. destruct (queue U m) as [|e q] eqn:Q; [congruence|].
      destruct (queue_tail (finished U m) e q i_queue0 i_fin0) as (H1 & H2 & H3).
      assert (R : exists s, reply_rest U (set_scheduled U false m) s q = (m', o) /\ s = match e with Some u => OUpdate U u | None => OGarbled U end).
      { destruct e; eauto. }
      destruct R as (s & R & ES). apply reply_rest_ok in R; [|reflexivity].
      destruct R as ((F1 & F2 & F3 & F4 & F5 & F6 & F7 & F8 & F9) & Q' & _ & D). cbn in *.
      destruct D as (O & S' & MP & W & TK & SQ & RD); [congruence|]. rewrite S in W, S'. cbn in W.
      split; [|split; [|split; [|split; [|split]]]].
      + split; [|split; [intros _; unfold count in *; rewrite TK, F9; destruct (scheduled U m'); lia|cbn; congruence]].
        constructor; rewrite ?F1, ?F2, ?F6, ?F7, ?F8, ?F9, ?Q', ?S' in *; auto; try congruence; try (intro Y; now apply SQ).
        intro T. destruct (i_typed0 T) as (X & _). discriminate.
      + repeat split; auto.
      + destruct e as [u|]; [apply RUpdate with u; auto; congruence|apply RGarbled; auto; congruence].
      + rewrite O, ES. destruct e; discriminate.
      + exact RD.
      + intros _ X. now apply SQ.
    - (* Executing *)
      cbn [queue set_scheduled pipeline window finished] in E. destruct (queue U m) as [|e q] eqn:Q.
      + injection E as <- <-. split; [|split; [|split; [|split; [|split]]]].
        * split; [|split; [intros _; exact C|cbn; congruence]]. constructor; cbn; rewrite ?Q, ?S, ?A; auto; try congruence. intro T. destruct (i_typed0 T) as (? & ? & ?). auto.
        * cbn. repeat split; auto.
        * apply RNone; cbn; auto. intros (_ & _ & X & _). cbn in X. congruence.
        * discriminate.
        * intros (_ & _ & X & _). cbn in X. congruence.
        * cbn. congruence.
      + destruct (pipeline U m && (window U m =? 0) && negb (finished U m)) eqn:G.
        * injection E as <- <-. apply andb_prop in G. destruct G as (G & G3). apply andb_prop in G. destruct G as (G1 & G2).
          apply Nat.eqb_eq in G2. apply negb_true_iff in G3.
          assert (NR : ~ ready (set_scheduled U false m)) by (intros (_ & _ & _ & [X|[X|X]]); cbn in X; congruence).
          split; [|split; [|split; [|split; [|split]]]].
          -- split; [|split; [intros _; exact C|cbn; congruence]]. constructor; cbn; rewrite ?Q, ?S, ?A; auto; try congruence.
             intro T. destruct (i_typed0 T) as (X & _). discriminate.
          -- cbn. repeat split; auto.
          -- apply RNone; cbn; auto.
          -- discriminate.
          -- intro X. now apply NR in X.
          -- cbn. congruence.
        * destruct (queue_tail (finished U m) e q i_queue0 i_fin0) as (H1 & H2 & H3).
          assert (G' : pipeline U m = true -> finished U m = true \/ window U m <> 0).
          { intro P. rewrite P in G. cbn in G. destruct (window U m) eqn:W; [|right; lia]. cbn in G. left. now apply negb_false_iff in G. }
          destruct e as [u|].
          -- apply reply_rest_ok in E; [|reflexivity]. destruct E as ((F1 & F2 & F3 & F4 & F5 & F6 & F7 & F8 & F9) & Q' & _ & D). cbn in *.
             destruct D as (O & S' & MP & W & TK & SQ & RD); [congruence|]. rewrite S in W, S'. cbn in W.
             split; [|split; [|split; [|split; [|split]]]].
             ++ split; [|split; [intros _; unfold count in *; rewrite TK, F9; destruct (scheduled U m'); lia|cbn; congruence]].
                constructor; rewrite ?F1, ?F2, ?F6, ?F7, ?F8, ?F9, ?Q', ?S' in *; auto; try congruence; try (intro Y; now apply SQ).
                intro T. destruct (i_typed0 T) as (X & _). discriminate.
             ++ repeat split; auto.
             ++ apply RUpdate with u; try congruence. left. split; [exact S|]. split; [exact G'|exact W].
             ++ rewrite O. discriminate.
             ++ exact RD.
             ++ intros _ X. now apply SQ.
          -- apply reply_rest_ok in E; [|reflexivity]. destruct E as ((F1 & F2 & F3 & F4 & F5 & F6 & F7 & F8 & F9) & Q' & D & _). cbn in *.
             destruct (D eq_refl) as (S' & W & TK & SC' & r & O & ->). destruct (H3 eq_refl) as (-> & FN).
             split; [|split; [|split; [|split; [|split]]]].
             ++ split; [|split; [intros _; unfold count in *; rewrite SC', TK, F9; exact C|cbn; congruence]].
                constructor; rewrite ?F1, ?F2, ?F6, ?F7, ?F8, ?F9, ?Q', ?S', ?SC' in *; auto; try congruence.
                intro T. destruct (i_typed0 T) as (X & _). discriminate.
             ++ repeat split; auto.
             ++ apply RFinish; auto; congruence.
             ++ rewrite O. discriminate.
             ++ intros (_ & X & _). congruence.
             ++ congruence.
    - injection E as <- <-. split; [|split; [|split; [|split; [|split]]]].
      + split; [|split; [intros _; exact C|cbn; congruence]]. constructor; cbn; rewrite ?S, ?A; auto; try congruence. intro T. destruct (i_typed0 T) as (? & ? & ?). auto.
      + cbn. repeat split; auto.
      + apply RNone; cbn; auto. intros (_ & X & _). cbn in X. congruence.
      + discriminate.
      + intros (_ & X & _). cbn in X. congruence.
      + cbn. congruence.
  Qed.

  (** ready to send within the window *)
  Definition wready (m : mon) : Prop :=
    alive U m = true /\ st U m = Executing /\ queue U m <> [] /\ (pipeline U m = false \/ window U m <> 0).

  Lemma maybe_reply_ok m : inv m -> let m' := maybe_reply U m in
    inv m' /\ queue U m' = queue U m /\ window U m' = window U m /\ st U m' = st U m /\ limit U m' = limit U m /\
    finished U m' = finished U m /\ pipeline U m' = pipeline U m /\ maxqueue U m' = maxqueue U m /\ nsquash U m' = nsquash U m /\
    typed U m' = typed U m /\ alive U m' = alive U m /\ mid U m' = mid U m /\ (wready m' -> scheduled U m' = true) /\
    (scheduled U m' = scheduled U m \/ st U m = Executing).
  Proof.
    intros (I & C & CT) m'. unfold m', maybe_reply.
    destruct (negb (scheduled U m) && state_eqb (st U m) Executing && nonempty (queue U m) && (negb (pipeline U m) || negb (window U m =? 0))) eqn:B.
    - apply andb_prop in B. destruct B as (B & B4). apply andb_prop in B. destruct B as (B & B3). apply andb_prop in B. destruct B as (B1 & B2).
      apply negb_true_iff in B1. apply state_eqb_eq in B2. apply nonempty_ne in B3.
      split; [|cbn; repeat split; auto]. split; [|split].
      + destruct I. constructor; cbn; auto; try congruence. intro T. destruct (i_typed0 T) as (? & ? & ?). congruence.
      + cbn. intro A. specialize (C A). unfold count in *. cbn. rewrite replies_app, B1 in *. unfold replies in *. cbn. lia.
      + cbn. congruence.
    - split; [split; auto|]. repeat split; auto. intros (A & X & Q & W). destruct (scheduled U m) eqn:S; [reflexivity|exfalso].
      apply not_true_iff_false in B. apply B. rewrite X. cbn. apply andb_true_intro. split; [now apply nonempty_ne|].
      destruct W as [W|W]; [now rewrite W|]. apply Nat.eqb_neq in W. rewrite W. now rewrite orb_true_r.
  Qed.

  Inductive post_effect (m : mon) (val : option U) (maybe force : bool) (m' : mon) : Prop :=
  | PIgnored : queue U m' = queue U m -> finished U m' = finished U m -> takes U real m (EPost U val maybe force) = [] ->
      (val = None -> finished U m = true) -> nsquash U m' = nsquash U m -> post_effect m val maybe force m'
  | PPush u : val = Some u -> queue U m' = queue U m ++ [Some u] -> finished U m' = false -> finished U m = false ->
      real u = true -> nsquash U m' = nsquash U m ->
      takes U real m (EPost U val maybe force) = [u] -> (force = true \/ length (queue U m) < limit U m) -> post_effect m val maybe force m'
  | PMerge u q b : val = Some u -> queue U m = q ++ [Some b] -> queue U m' = q ++ [Some (squash b u)] ->
      finished U m' = false -> finished U m = false -> real u = true -> nsquash U m' = S (nsquash U m) ->
      takes U real m (EPost U val maybe force) = [u] -> force = false /\ limit U m <= length (queue U m) -> post_effect m val maybe force m'
  | PFinish : val = None -> queue U m' = queue U m ++ [None] -> finished U m' = true -> finished U m = false ->
      nsquash U m' = nsquash U m -> post_effect m val maybe force m'.

  Lemma do_post_ok m val maybe force m' o : do_post U real squash m val maybe force = (m', o) -> inv m -> typed U m = true ->
    inv m' /\ post_effect m val maybe force m' /\
    (o = [OReturn U (negb (finished U m) && (length (queue U m') <? limit U m))]) /\
    limit U m' = limit U m /\ window U m' = window U m /\ st U m' = st U m /\ pipeline U m' = pipeline U m /\
    typed U m' = typed U m /\ alive U m' = alive U m /\ mid U m' = mid U m /\
    (wready m' -> scheduled U m' = true \/ (queue U m' = queue U m /\ scheduled U m' = scheduled U m)) /\ (scheduled U m' = scheduled U m \/ st U m = Executing) /\
    maxqueue U m' = max (maxqueue U m) (if length (queue U m) <? length (queue U m') then length (queue U m') else 0).
  Proof.
    intros E (I & C & CT) T. unfold do_post in E. destruct (finished U m) eqn:F.
    { injection E as <- <-. split; [split; auto|]. split; [apply PIgnored; auto; destruct val; cbn; [rewrite F; cbn; now rewrite andb_false_r|reflexivity]|].
      rewrite Nat.ltb_irrefl, Nat.max_0_r. repeat split; auto. }
    assert (NC : st U m <> Creating) by (intro X; apply CT in X; congruence).
    destruct val as [u|].
    2:{ cbn [orb] in E. rewrite orb_true_r in E. cbv iota zeta in E.
        set (m2 := set_queue U _ _ _ _ m) in E.
        assert (I2 : inv m2).
        { destruct I. split; [|split; [exact C|exact CT]].
          constructor; cbn; auto; try congruence.
          - destruct i_queue0 as (us & [X|(X & _)]); [|congruence]. exists us. right. now rewrite X.
          - intros _. right. destruct i_queue0 as (us & [X|(X & _)]); [|congruence]. exists us. now rewrite X.
          - intros _ X. apply app_eq_nil in X. destruct X. discriminate. }
        pose proof (maybe_reply_ok m2 I2) as M. cbv zeta in M. destruct M as (M1 & M2 & M3 & M4 & M5 & M6 & M7 & M8 & M9 & M10 & M11 & M12 & M13 & M14).
        injection E as <- <-. rewrite M2, M3, M4, M5, M7, M8, M10, M11, M12. cbn [queue m2 set_queue window st limit pipeline typed alive mid maxqueue negb andb].
        split; [exact M1|]. split.
        { apply PFinish; first [exact M2|exact M6|exact M9|auto]. }
        split; [reflexivity|]. repeat (split; [reflexivity|]). split; [left; auto|]. split; [exact M14|].
        rewrite app_length. cbn [length]. replace (length (queue U m) <? length (queue U m) + 1) with true by (symmetry; apply Nat.ltb_lt; lia).
        destruct (maxqueue U m <? length (queue U m) + 1) eqn:L; [apply Nat.ltb_lt in L|apply Nat.ltb_ge in L]; lia. }
    rewrite orb_false_r in E. destruct (real u) eqn:R.
    2:{ injection E as <- <-. split; [split; auto|]. split; [apply PIgnored; auto; cbn; [now rewrite R|discriminate]|].
        rewrite Nat.ltb_irrefl, Nat.max_0_r. repeat split; auto. }
    rewrite orb_false_r in E. destruct ((length (queue U m) <? limit U m) || force) eqn:L.
    - set (m2 := set_queue U _ _ _ _ m) in E.
      assert (I2 : inv m2).
      { destruct I. split; [|split; [exact C|exact CT]].
        constructor; cbn; auto; try congruence.
        - destruct i_queue0 as (us & [X|(X & _)]); [|congruence]. exists (us ++ [u]). left. now rewrite X, map_app.
        - intros _ X. apply app_eq_nil in X. destruct X. discriminate. }
      pose proof (maybe_reply_ok m2 I2) as M. cbv zeta in M. destruct M as (M1 & M2 & M3 & M4 & M5 & M6 & M7 & M8 & M9 & M10 & M11 & M12 & M13 & M14).
      injection E as <- <-. rewrite M2, M3, M4, M5, M7, M8, M10, M11, M12. cbn [queue m2 set_queue window st limit pipeline typed alive mid maxqueue negb andb].
      split; [exact M1|]. split.
      { apply (PPush _ _ _ _ _ u); first [exact M2|exact (eq_trans M6 F)|exact M9|auto]; [cbn [takes]; rewrite R, F; cbn [andb negb]; apply orb_prop in L; destruct L as [-> | ->]; [now rewrite orb_true_r|rewrite orb_true_r; reflexivity]|].
        apply orb_prop in L. destruct L as [L|L]; [right; now apply Nat.ltb_lt|left; exact L]. }
      split; [reflexivity|]. repeat (split; [reflexivity|]). split; [left; auto|]. split; [exact M14|].
      rewrite app_length. cbn [length]. replace (length (queue U m) <? length (queue U m) + 1) with true by (symmetry; apply Nat.ltb_lt; lia).
      destruct (maxqueue U m <? length (queue U m) + 1) eqn:L2; [apply Nat.ltb_lt in L2|apply Nat.ltb_ge in L2]; lia.
    - apply orb_false_iff in L. destruct L as (L & ->). apply Nat.ltb_ge in L. destruct maybe.
      + cbn [negb] in E. pose proof (maybe_reply_ok m (conj I (conj C CT))) as M. cbv zeta in M. destruct M as (M1 & M2 & M3 & M4 & M5 & M6 & M7 & M8 & M9 & M10 & M11 & M12 & M13 & M14).
        injection E as <- <-. rewrite M2, M3, M4, M5, M7, M8, M10, M11, M12. split; [exact M1|]. split.
        { apply PIgnored; auto; [|discriminate]. cbn [takes]. replace (length (queue U m) <? limit U m) with false by (symmetry; apply Nat.ltb_ge; lia). now rewrite andb_false_r. }
        rewrite Nat.ltb_irrefl, Nat.max_0_r. repeat split; auto.
      + cbn [negb] in E. destruct I. destruct i_queue0 as (us & [Q|(X & _)]); [|congruence].
        destruct (lastn (queue U m)) as [(q, x)|] eqn:LN.
        2:{ apply lastn_none in LN. rewrite LN in L. cbn in L. lia. }
        apply lastn_spec in LN. assert (exists vs b, q = map Some vs /\ x = Some b) as (vs & b & -> & ->).
        { destruct (exists_last (l := us)) as (vs & b & ->).
          { intros ->. rewrite Q in L. cbn in L. lia. }
          rewrite map_app in Q. rewrite Q in LN. apply app_inj_tail in LN. destruct LN as (<- & <-). eauto. }
        set (m2 := set_queue U _ _ _ _ m) in E.
        assert (I2 : inv m2).
        { split; [|split; [exact C|exact CT]].
          constructor; cbn; auto; try congruence.
          - exists (vs ++ [squash b u]). left. now rewrite map_app.
          - intros _ X. apply app_eq_nil in X. destruct X. discriminate. }
        pose proof (maybe_reply_ok m2 I2) as M. cbv zeta in M. destruct M as (M1 & M2 & M3 & M4 & M5 & M6 & M7 & M8 & M9 & M10 & M11 & M12 & M13 & M14).
        injection E as <- <-. rewrite M2, M3, M4, M5, M7, M8, M10, M11, M12. cbn [queue m2 set_queue window st limit pipeline typed alive mid maxqueue negb andb].
        split; [exact M1|]. split.
        { apply (PMerge _ _ _ _ _ u (map Some vs) b); first [exact M2|exact (eq_trans M6 F)|exact M9|auto]. cbn; rewrite R, F; reflexivity. }
        split; [reflexivity|]. repeat (split; [reflexivity|]). split; [left; auto|]. split; [exact M14|].
        rewrite LN, !app_length. cbn [length]. rewrite Nat.ltb_irrefl. lia.
  Qed.

  (** ** One step *)
  Definition quiet (o : list output) : Prop :=
    Forall (fun x => match x with OUpdate _ _ | OFinish _ | OGarbled _ | OEmpty _ | OAssert _ => False | _ => True end) o.
  Lemma quiet_sent o : quiet o -> sent o = [].
  Proof. induction 1 as [|x o H _ IH]; [reflexivity|]. destruct x; cbn; easy. Qed.

  Inductive effect (m : mon) (e : event) (m' : mon) (o : list output) : Prop :=
  | FQuiet : quiet o -> queue U m' = queue U m -> finished U m' = finished U m -> takes U real m e = [] ->
      (e <> EStats U true -> nsquash U m' = nsquash U m /\ maxqueue U m' = maxqueue U m) ->
      (forall a b, e = EPost U None a b -> False) -> effect m e m' o
  | FPost val maybe force : e = EPost U val maybe force -> o = [OReturn U (negb (finished U m) && (length (queue U m') <? limit U m))] ->
      post_effect m val maybe force m' ->
      maxqueue U m' = max (maxqueue U m) (if length (queue U m) <? length (queue U m') then length (queue U m') else 0) -> effect m e m' o
  | FSend x : o = [match x with Some u => OUpdate U u | None => match st U m with Executing => OFinish U | _ => OGarbled U end end] ->
      queue U m = x :: queue U m' -> finished U m' = finished U m ->
      takes U real m e = [] -> nsquash U m' = nsquash U m -> maxqueue U m' = maxqueue U m -> (st U m = Executing \/ st U m = Idle) ->
      (forall a b, e = EPost U None a b -> False) -> effect m e m' o.

  Definition credit (m : mon) : nat := window U m + (if state_eqb (st U m) Idle && scheduled U m then 1 else 0).
  Definition kicked (m : mon) : Prop := mid U m = false -> wready m -> scheduled U m = true.

  Record step_facts (m : mon) (e : event) (m' : mon) (o : list output) : Prop := {
    s_inv : inv m';
    s_limit : limit U m' = limit U m;
    s_pipe : pipeline U m' = pipeline U m;
    s_effect : effect m e m' o;
    s_credit : finished U m = false -> pipeline U m = true ->
      length (sent o) + credit m' <= credit m + acks U [e] + stops U [e];
    s_kicked : pipeline U m = false \/ (forall n r d, e = EMsg U (Some n) r d -> r = Some true) -> kicked m -> kicked m'
  }.

  Lemma sent1 (o : list output) : o = [] -> sent o = [].
  Proof. now intros ->. Qed.

  (** doReply() from the worker, [m0] being [m] without the task *)
  Lemma reply_step m m0 e m' o :
    inv m -> do_reply U m0 = (m', o) -> inv0 m0 -> (alive U m0 = true -> count m0 = 0) ->
    (st U m0 = Idle -> alive U m0 = true -> scheduled U m0 = true) ->
    queue U m0 = queue U m -> st U m0 = st U m -> finished U m0 = finished U m -> window U m0 = window U m -> pipeline U m0 = pipeline U m ->
    scheduled U m0 = scheduled U m -> limit U m0 = limit U m -> nsquash U m0 = nsquash U m -> maxqueue U m0 = maxqueue U m ->
    alive U m0 = alive U m -> (st U m = Creating \/ takes U real m e = []) ->
    (forall val a b, e = EPost U val a b -> False) -> step_facts m e m' o.
  Proof.
    intros I E I0 C SC Q S F W P SCH L N MQ AL TK NP.
    assert (TK' : takes U real m e = []) by (destruct e; try reflexivity; exfalso; eapply NP; reflexivity).
    destruct (do_reply_ok m0 m' o E I0 C) as (I' & (F1 & F2 & F3 & F4 & F5 & F6 & F7 & F8 & F9) & EF & NE & RD & SE).
    { intros X Y. apply (i_sched _ I0). now apply SC. }
    assert (NP' : forall a b, e = EPost U None a b -> False) by (intros a b; apply NP).
    constructor; try congruence.
    - destruct EF as [-> Q1 W1 S1 NR|ok -> T1 Q1 W1 S1 S2|u -> Q1 S1 H| -> Q1 S1 S2 W1| -> Q1 S1 S2 W1| -> Q1 S1].
      + apply FQuiet; try congruence; try constructor; congruence.
      + apply FQuiet; try congruence; [repeat constructor|]. intros _. split; congruence.
      + apply (FSend _ _ _ _ (Some u)); try congruence. destruct H as [(H & _)|(H & _)]; rewrite <- S; auto.
      + apply (FSend _ _ _ _ None); try congruence; rewrite <- S, S1; auto.
      + apply (FSend _ _ _ _ None); try congruence; rewrite <- S, S1; auto.
      + congruence.
    - intros FF PP. unfold credit.
      destruct (alive U m0) eqn:A.
      2:{ unfold do_reply in E. rewrite A in E. cbn in E. injection E as <- <-. rewrite S, W, SCH. cbn. lia. }
      specialize (SE eq_refl). specialize (SC).
      assert (X : (if state_eqb (st U m') Idle && scheduled U m' then 1 else 0) = 0).
      { destruct (scheduled U m'); [rewrite SE by reflexivity; reflexivity|now rewrite andb_false_r]. }
      rewrite X.
      destruct EF as [-> Q1 W1 S1 NR|ok -> T1 Q1 W1 S1 S2|u -> Q1 S1 H| -> Q1 S1 S2 W1| -> Q1 S1 S2 W1| -> Q1 S1]; cbn [sent ServerMonSpec.sent length].
      + lia.
      + lia.
      + destruct H as [(H & G & W1)|(H & W1)].
        * rewrite P, PP in *. destruct (G eq_refl); [congruence|]. lia.
        * rewrite <- S, H. rewrite <- SCH, (SC H eq_refl). cbn. lia.
      + lia.
      + lia.
      + congruence.
    - intros _ K. intros MD (A & B & D & H). apply RD. split; [exact A|]. split; [exact B|]. split; [exact D|]. destruct H; auto.
  Qed.

  Lemma inv0_work m t b : inv0 m -> Forall (fun t => t = TReply) b -> inv0 (set_work U t b m).
  Proof. intros [] H. constructor; cbn; auto. Qed.
  Lemma inv_task m t : inv m -> is_reply t = false -> inv (dispatch U t m).
  Proof.
    intros (I & C & T) H. split; [|split].
    - unfold dispatch. apply inv0_work; [exact I|apply (i_backlog _ I)].
    - cbn. intro A. specialize (C A). unfold count in *. cbn. rewrite replies_app. unfold replies at 2. cbn. rewrite H. cbn. lia.
    - exact T.
  Qed.
  Lemma replies_cons t l : replies (t :: l) = (if is_reply t then 1 else 0) + replies l.
  Proof. unfold replies. cbn. destruct (is_reply t); reflexivity. Qed.
  Lemma inv_cleanup m m' o : inv m -> cleanup U m = (m', o) -> inv m' /\ quiet o.
  Proof.
    intros (I & C & T) E. destruct (cleanup_inv m m' o I E) as (I' & TK & BK & S & SC & Q & _ & A & _). split.
    - split; [exact I'|]. split; [|congruence]. intro X. unfold count in *. rewrite TK, BK, SC. apply C. congruence.
    - unfold cleanup in E. destruct (state_eqb (st U m) Dead); injection E as _ <-; [constructor|].
      destruct (state_eqb (st U m) Executing && onstart U m); repeat constructor.
  Qed.
  Lemma cleanup_same m m' o : cleanup U m = (m', o) ->
    queue U m' = queue U m /\ finished U m' = finished U m /\ window U m' = window U m /\ pipeline U m' = pipeline U m /\ limit U m' = limit U m /\
    maxqueue U m' = maxqueue U m /\ nsquash U m' = nsquash U m /\ st U m' = Dead.
  Proof.
    intro E. unfold cleanup in E. destruct (state_eqb (st U m) Dead) eqn:S; injection E as <- <-; cbn; repeat split; auto. now apply state_eqb_eq in S.
  Qed.

  (** steps which do not touch queue, window or state *)
  Lemma plain_step m e m' o : inv m -> inv m' -> quiet o ->
    queue U m' = queue U m -> finished U m' = finished U m -> takes U real m e = [] ->
    (e <> EStats U true -> nsquash U m' = nsquash U m /\ maxqueue U m' = maxqueue U m) ->
    (forall a b, e = EPost U None a b -> False) -> limit U m' = limit U m -> pipeline U m' = pipeline U m ->
    (finished U m = false -> pipeline U m = true -> credit m' <= credit m + acks U [e] + stops U [e]) ->
    (pipeline U m = false \/ (forall n r d, e = EMsg U (Some n) r d -> r = Some true) -> kicked m -> kicked m') -> step_facts m e m' o.
  Proof.
    intros. constructor; auto.
    - now apply FQuiet.
    - intros. rewrite quiet_sent by assumption. cbn [length]. auto.
  Qed.

  Lemma task_facts t m m0 m' o e : inv m -> e = ETask U \/ e = EBacklog U ->
    ((exists ts, m0 = set_work U ts (backlog U m) m /\ tasks U m = t :: ts) \/
     (exists b, m0 = set_work U (tasks U m) b m /\ backlog U m = t :: b /\ alive U m = true)) ->
    run_task U t m0 = (m', o) -> step_facts m e m' o.
  Proof.
    intros I EE H R. pose proof I as (I0 & C & CT).
    assert (NP : forall val a b, e = EPost U val a b -> False) by (intros val a b ->; destruct EE; discriminate).
    assert (NS : e <> EStats U true) by (intros ->; destruct EE; discriminate).
    assert (TK : takes U real m e = []) by (destruct EE as [-> | ->]; reflexivity).
    assert (AK : acks U [e] = 0 /\ stops U [e] = 0) by (destruct EE as [-> | ->]; split; reflexivity). destruct AK as (AK1 & AK2).
    assert (M0 : inv0 m0 /\ (alive U m = true -> count m0 + (if is_reply t then 1 else 0) = count m) /\
      queue U m0 = queue U m /\ st U m0 = st U m /\ finished U m0 = finished U m /\ window U m0 = window U m /\ pipeline U m0 = pipeline U m /\
      scheduled U m0 = scheduled U m /\ limit U m0 = limit U m /\ nsquash U m0 = nsquash U m /\ maxqueue U m0 = maxqueue U m /\
      alive U m0 = alive U m /\ typed U m0 = typed U m /\ mid U m0 = mid U m).
    { destruct H as [(ts & -> & X)|(b & -> & X & A)].
      - split; [apply inv0_work; [exact I0|apply (i_backlog _ I0)]|]. cbn. split; [|repeat split].
        intros _. unfold count. cbn. rewrite X, replies_cons. lia.
      - split; [apply inv0_work; [exact I0|]|].
        + pose proof (i_backlog _ I0) as Y. rewrite X in Y. now inversion Y.
        + cbn. split; [|repeat split]. intros _. unfold count. cbn. rewrite X, replies_cons. lia. }
    destruct M0 as (J0 & JC & Q & S & F & W & P & SC & L & N & MQ & A & TY & MI).
    assert (RS : is_reply t = true \/ st U m = Creating -> forall m' o, do_reply U m0 = (m', o) -> step_facts m e m' o).
    { intros HR m1 o1 E1. apply reply_step with m0; auto.
      - intro X. rewrite A in X. specialize (C X). specialize (JC X). destruct HR as [HR|HR].
        + rewrite HR in JC. destruct (scheduled U m); lia.
        + destruct (i_creating _ I0 HR) as (_ & Y & _). rewrite Y in C. lia.
      - intros X Y. rewrite A in Y. specialize (C Y). specialize (JC Y). destruct HR as [HR|HR]; [|congruence].
        rewrite HR in JC. rewrite SC. destruct (scheduled U m); [reflexivity|lia]. }
    assert (INV0 : is_reply t = false -> inv m0).
    { intro HR. split; [exact J0|]. split; [|rewrite S, TY; exact CT]. intro X. rewrite A in X. rewrite SC. rewrite <- (C X), <- (JC X), HR. lia. }
    destruct t; cbn [run_task] in R.
    - (* TTry *)
      destruct (alive U m0) eqn:A0; cbn [negb] in R.
      2:{ injection R as <- <-. apply plain_step; auto; try congruence; try (now constructor); try (intros a b; exact (NP _ a b)); try (intros _; split; congruence).
          - split; [exact J0|]. split; [congruence|rewrite S, TY; exact CT].
          - intros _ _. unfold credit. rewrite W, S, SC. lia.
          - intros _ _ _ (X & _). congruence. }
      destruct (reading U m0); [now apply RS; [left|]|]. injection R as <- <-.
      apply plain_step; auto; cbn; try congruence; try (now constructor); try (intros a b; exact (NP _ a b)); try (intros _; split; congruence).
      + split; [apply inv0_work; [exact J0|apply Forall_app; split; [apply (i_backlog _ J0)|repeat constructor]]|]. split; [|cbn; rewrite S, TY; exact CT]. cbn. intros _. assert (X : alive U m = true) by congruence. specialize (C X). specialize (JC X).
        unfold count in *. cbn in *. rewrite replies_app. unfold replies at 3. cbn. rewrite SC. lia.
      + intros _ _. unfold credit. cbn. rewrite W, S, SC. lia.
      + intros _ K. unfold kicked, wready in *. cbn. rewrite A0, SC, MI, S, Q, P, W. rewrite <- A in K. exact K.
    - now apply RS; [left|].
    - injection R as <- <-. apply plain_step; auto; cbn; try congruence; try (intros a b; exact (NP _ a b)); try (intros _; split; congruence).
      + destruct (INV0 eq_refl) as (? & ? & ?). split; [|split; auto]. destruct J0. constructor; cbn; auto.
      + destruct (onlow U m0); repeat constructor.
      + intros _ _. unfold credit. cbn. rewrite W, S, SC. lia.
      + intros _ K. unfold kicked, wready in *. cbn. rewrite A, SC, MI, S, Q, P, W. exact K.
    - injection R as <- <-. apply plain_step; auto; cbn; try congruence; try (intros a b; exact (NP _ a b)); try (intros _; split; congruence).
      + destruct (INV0 eq_refl) as (? & ? & ?). split; [|split; auto]. destruct J0. constructor; cbn; auto.
      + destruct (onhigh U m0 && negb (finished U m0)); repeat constructor.
      + intros _ _. unfold credit. cbn. rewrite W, S, SC. lia.
      + intros _ K. unfold kicked, wready in *. cbn. rewrite A, SC, MI, S, Q, P, W. exact K.
    - destruct (inv_cleanup _ _ _ (INV0 eq_refl) R) as (I' & QT). destruct (cleanup_same _ _ _ R) as (C1 & C2 & C3 & C4 & C5 & C6 & C7 & C8).
      apply plain_step; auto; try congruence; try (intros a b; exact (NP _ a b)); try (intros _; split; congruence).
      + intros _ _. unfold credit. rewrite C8, C3, W. cbn. lia.
      + intros _ _ _ (_ & X & _). congruence.
    - destruct (state_eqb (st U m0) Creating) eqn:X.
      + apply state_eqb_eq in X. apply RS; [right; congruence|exact R].
      + injection R as <- <-. apply plain_step; auto; try congruence; try (now constructor); try (intros a b; exact (NP _ a b)); try (intros _; split; congruence).
        * intros _ _. unfold credit. rewrite W, S, SC. lia.
        * intros _ K. unfold kicked, wready in *. rewrite A, SC, MI, S, Q, P, W. exact K.
  Qed.

  Lemma inv_conn m r p d : inv m -> (st U m = Creating -> d = false) -> inv (set_conn U r (alive U m) p d m).
  Proof.
    intros ([] & C & T) D. split; [|split; auto]. constructor; cbn; auto.
    intro X. destruct (i_creating0 X) as (? & ? & ? & ?). auto.
  Qed.
  Lemma inv_run_state m (b : bool) : inv m -> st U m <> Creating -> alive U m = true ->
    inv (set_conn U (reading U m) (alive U m) (mapped U m) true (set_st U (if b then Executing else Idle) m)).
  Proof.
    intros ([] & C & T) NC A. split; [|split].
    - constructor; cbn; auto; try congruence. destruct b; discriminate.
    - cbn. exact C.
    - cbn. destruct b; discriminate.
  Qed.

  Lemma step_ok m e m' o : step m e = Some (m', o) -> inv m -> step_facts m e m' o.
  Proof.
    intros E I. pose proof I as (I0 & C & CT). destruct e as [val maybe force|reset| | |ack run destroy|destroy|lo hi|lo hi s| | |b|]; cbn [ServerMonModel.step] in E.
    - (* post *)
      destruct (typed U m) eqn:T; [|discriminate]. injection E as E.
      destruct (do_post_ok m val maybe force m' o E I T) as (I' & PE & O & L & W & S & P & TY & A & MI & K & SE & MQ).
      constructor; auto.
      + eapply FPost; eauto.
      + intros _ _. rewrite O. cbn. unfold credit. rewrite W, S. destruct SE as [-> | ->]; cbn; lia.
      + intros _ KM MD WR. destruct (K WR) as [X|(X & Y)]; [exact X|]. rewrite Y. apply KM; [congruence|].
        destruct WR as (W1 & W2 & W3 & W4). unfold wready. rewrite <- A, <- S, <- X, <- P, <- W. auto.
    - (* stats *)
      destruct (typed U m) eqn:T; [|discriminate]. injection E as <- <-. destruct reset.
      + apply plain_step; auto; try congruence; try (now constructor); try (intros _; split; congruence).
        * split; [|split; [exact C|cbn; intro X; apply CT in X; discriminate]]. destruct I0. constructor; cbn; auto.
        * intros _ _. unfold credit. cbn. lia.
      + apply plain_step; auto; try congruence; try (now constructor); try (intros _; split; congruence). intros; cbn; lia.
    - (* connect *)
      destruct (mid U m); [discriminate|]. destruct (state_eqb (st U m) Creating) eqn:S; [|discriminate]. apply state_eqb_eq in S. injection E as E.
      destruct (i_creating _ I0 S) as (Q & SC & F & MD).
      eapply reply_step; eauto; cbn; try congruence.
      + destruct I0. constructor; cbn; auto; try congruence. 
      + intro A. specialize (C A). unfold count in *. cbn. rewrite SC in C. exact C.
    - destruct (mid U m) eqn:MD; [discriminate|]. injection E as <- <-. apply plain_step; auto; try congruence; try (now constructor); try (intros _; split; congruence).
      + now apply inv_task.
      + intros. unfold credit. cbn. lia.
    - (* message *)
      destruct (mid U m) eqn:MD; [discriminate|].
      destruct (alive U m) eqn:A; [|discriminate]. destruct (mapped U m) eqn:MP; [|discriminate]. destruct (reading U m) eqn:RD; [|discriminate]. cbn [negb orb] in E.
      assert (CL : st U m = Creating \/ st U m = Dead \/ (st U m = Idle \/ st U m = Executing)) by (destruct (st U m); auto).
      destruct CL as [S|[S|S]].
      + rewrite S in E. destruct (cleanup U (set_conn U true false true false m)) as (m1, o1) eqn:CE. injection E as <- <-.
        destruct (cleanup_same _ _ _ CE) as (C1 & C2 & C3 & C4 & C5 & C6 & C7 & C8). cbn in *.
        destruct (i_creating _ I0 S) as (Q & SC & F & _).
        assert (I' : inv m1 /\ quiet o1).
        { unfold cleanup in CE. cbn in CE. rewrite S in CE. cbn in CE. injection CE as <- <-. split; [|repeat constructor].
          split; [|split; cbn; congruence]. destruct I0. constructor; cbn; auto; try congruence. }
        destruct I' as (I' & QO). apply plain_step; auto; try congruence.
        * intros. unfold credit. rewrite C8, C3. cbn. lia.
        * intros _ _ _ (_ & X & _). congruence.
      + rewrite S in E. injection E as <- <-. apply plain_step; auto; try congruence; try (now constructor); try (intros _; split; congruence). intros; lia.
      + (* running or idle *)
        set (m1 := match ack with Some _ => _ | None => _ end) in E.
        assert (M1 : inv m1 /\ queue U m1 = queue U m /\ finished U m1 = finished U m /\ nsquash U m1 = nsquash U m /\ maxqueue U m1 = maxqueue U m /\
          limit U m1 = limit U m /\ pipeline U m1 = pipeline U m /\ st U m1 = st U m /\ scheduled U m1 = scheduled U m /\ mid U m1 = false /\ alive U m1 = true /\
          window U m1 = window U m + (if pipeline U m then match ack with Some n => n | None => 0 end else 0) /\ (ack = None \/ pipeline U m = false -> m1 = m)).
        { unfold m1. destruct ack as [n|]; [|split; [exact I|]; repeat split; auto; destruct (pipeline U m); lia].
          destruct (pipeline U m) eqn:P; [|split; [exact I|]; repeat split; auto; try lia].
          assert (I1 : inv (set_window U (window U m + n) m)) by (split; [destruct I0; constructor; cbn; auto|split; auto]).
          cbv zeta. match goal with |- context [if ?b then _ else _] => destruct b end.
          - split; [|cbn; repeat split; auto; intros [X|X]; discriminate]. apply inv_task; [|reflexivity].
            destruct I1 as (J0 & J1 & J2). split; [destruct J0; constructor; cbn; auto|split; auto].
          - split; [exact I1|]. cbn. repeat split; auto; intros [X|X]; discriminate. }
        clearbody m1. destruct M1 as (I1 & Q1 & F1 & N1 & MQ1 & L1 & P1 & S1 & SC1 & MD1 & A1 & W1 & AN).
        assert (WA : window U m1 <= window U m + match ack with Some n => n | None => 0 end) by (rewrite W1; destruct (pipeline U m); lia).
        assert (AC : acks U [EMsg U ack run destroy] = match ack with Some n => n | None => 0 end) by (destruct ack; cbn; lia).
        assert (E' : (match run with
                    | Some b => Some (set_conn U (reading U m1) (alive U m1) (mapped U m1) true (set_st U (if b then Executing else Idle) m1), if onstart U m1 then [OStart U b] else [])
                    | None => Some (msg_tail U destroy m1, [])
                    end) = Some (m', o)) by (destruct S as [S|S]; rewrite S in E; exact E).
        clear E. destruct run as [b|]; injection E' as <- <-.
        * apply plain_step; auto; cbn [queue finished nsquash maxqueue limit pipeline set_conn set_st]; try congruence; try (intros _; split; congruence).
          -- apply inv_run_state; auto. destruct S; congruence.
          -- destruct (onstart U m1); repeat constructor.
          -- intros _ _. rewrite AC. unfold credit. cbn. rewrite SC1. destruct b; cbn.
             ++ destruct S as [S|S]; rewrite S; cbn; destruct (scheduled U m); lia.
             ++ destruct S as [S|S]; rewrite S; cbn; destruct (scheduled U m), ack; lia.
          -- intros _ _ X. cbn in X. discriminate.
        * assert (I2 : inv (msg_tail U destroy m1)).
          { unfold msg_tail. destruct destroy; [|exact I1]. apply inv_task; [|reflexivity]. apply inv_conn; [exact I1|]. destruct S; congruence. }
          assert (SAME : queue U (msg_tail U destroy m1) = queue U m1 /\ finished U (msg_tail U destroy m1) = finished U m1 /\ nsquash U (msg_tail U destroy m1) = nsquash U m1 /\
            maxqueue U (msg_tail U destroy m1) = maxqueue U m1 /\ limit U (msg_tail U destroy m1) = limit U m1 /\ pipeline U (msg_tail U destroy m1) = pipeline U m1 /\
            st U (msg_tail U destroy m1) = st U m1 /\ scheduled U (msg_tail U destroy m1) = scheduled U m1 /\ window U (msg_tail U destroy m1) = window U m1 /\
            alive U (msg_tail U destroy m1) = alive U m1 /\ mid U (msg_tail U destroy m1) = mid U m1).
          { unfold msg_tail. destruct destroy; cbn; repeat split; auto. }
          destruct SAME as (T1 & T2 & T3 & T4 & T5 & T6 & T7 & T8 & T9 & T10 & T11).
          apply plain_step; auto; try congruence; try (now constructor); try (intros _; split; congruence).
          -- intros _ _. rewrite AC. unfold credit. rewrite T7, T8, T9, S1, SC1. lia.
          -- intros BA K _ WR. assert (X : ack = None \/ pipeline U m = false).
             { destruct BA as [BA|BA]; [auto|]. destruct ack as [n|]; [specialize (BA n None destroy eq_refl); discriminate|auto]. }
             rewrite (AN X) in *. rewrite T8. apply K; [exact MD|]. destruct WR as (X1 & X2 & X3 & X4). unfold wready. rewrite <- T10, <- T7, <- T1, <- T6, <- T9. auto.
    - (* second half of a start or stop *)
      destruct (mid U m) eqn:MD; [|discriminate]. injection E as <- <-.
      assert (I1 : inv (set_conn U (reading U m) (alive U m) (mapped U m) false m)) by (now apply inv_conn).
      set (m1 := set_conn U _ _ _ _ m) in *. pose proof (maybe_reply_ok m1 I1) as M. cbv zeta in M.
      destruct M as (M1 & M2 & M3 & M4 & M5 & M6 & M7 & M8 & M9 & M10 & M11 & M12 & M13 & M14).
      set (m2 := maybe_reply U m1) in *. clearbody m2.
      assert (NC : st U m2 <> Creating).
      { rewrite M4. cbn. intro X. destruct (i_creating _ I0 X) as (_ & _ & _ & Y). congruence. }
      assert (I2 : inv (msg_tail U destroy m2)).
      { unfold msg_tail. destruct destroy; [|exact M1]. apply inv_task; [|reflexivity]. apply inv_conn; [exact M1|]. congruence. }
      assert (SAME : queue U (msg_tail U destroy m2) = queue U m2 /\ finished U (msg_tail U destroy m2) = finished U m2 /\ nsquash U (msg_tail U destroy m2) = nsquash U m2 /\
        maxqueue U (msg_tail U destroy m2) = maxqueue U m2 /\ limit U (msg_tail U destroy m2) = limit U m2 /\ pipeline U (msg_tail U destroy m2) = pipeline U m2 /\
        st U (msg_tail U destroy m2) = st U m2 /\ scheduled U (msg_tail U destroy m2) = scheduled U m2 /\ window U (msg_tail U destroy m2) = window U m2 /\
        alive U (msg_tail U destroy m2) = alive U m2 /\ mid U (msg_tail U destroy m2) = mid U m2).
      { unfold msg_tail. destruct destroy; cbn; repeat split; auto. }
      destruct SAME as (T1 & T2 & T3 & T4 & T5 & T6 & T7 & T8 & T9 & T10 & T11). cbn in M2, M3, M4, M5, M6, M7, M8, M9, M10, M11, M12, M14.
      apply plain_step; auto; try congruence; try (now constructor); try (intros _; split; congruence).
      + intros _ _. unfold credit. rewrite T7, T8, T9, M3, M4. destruct M14 as [-> | ->]; cbn; lia.
      + intros _ _ _ WR. rewrite T8. apply M13. destruct WR as (X1 & X2 & X3 & X4). unfold wready. rewrite <- T10, <- T7, <- T1, <- T6, <- T9. auto.
    - destruct (hi <? lo); [discriminate|]. injection E as <- <-. apply plain_step; auto; try congruence; try (now constructor); try (intros _; split; congruence).
      + split; [destruct I0; constructor; cbn; auto|split; auto].
      + intros; unfold credit; cbn; lia.
    - destruct (typed U m) eqn:T; [|discriminate]. injection E as <- <-. apply plain_step; auto; try congruence; try (now constructor); try (intros _; split; congruence).
      + split; [destruct I0; constructor; cbn; auto|split; [exact C|cbn; rewrite T; exact CT]].
      + intros; unfold credit; cbn; lia.
    - (* task *)
      destruct (mid U m); [discriminate|]. destruct (tasks U m) as [|t ts] eqn:TS; [discriminate|]. injection E as E.
      eapply task_facts; eauto.
    - destruct (mid U m); [discriminate|]. destruct (backlog U m) as [|t ts] eqn:TS; [discriminate|]. destruct (alive U m) eqn:A; [|discriminate]. injection E as E.
      eapply task_facts; eauto.
    - destruct (mid U m) eqn:MD; [discriminate|]. injection E as <- <-. apply plain_step; auto; try congruence; try (now constructor); try (intros _; split; congruence).
      + now apply inv_conn.
      + intros; unfold credit; cbn; lia.
      + intros _ K _ WR. cbn. apply K; auto.
    - destruct (mid U m) eqn:MD; [discriminate|]. destruct (cleanup U (set_conn U (reading U m) false (mapped U m) false m)) as (m1, o1) eqn:CE. injection E as <- <-.
      destruct (cleanup_same _ _ _ CE) as (C1 & C2 & C3 & C4 & C5 & C6 & C7 & C8). cbn in *.
      assert (I' : inv m1 /\ quiet o1).
      { unfold cleanup in CE. cbn in CE. destruct (state_eqb (st U m) Dead) eqn:S.
        - injection CE as <- <-. apply state_eqb_eq in S. split; [|constructor]. split; [|split; cbn; congruence]. destruct I0. constructor; cbn; auto.
          intro X. rewrite X in S. discriminate.
        - injection CE as <- <-. split.
          + split; [|split; cbn; congruence]. destruct I0. constructor; cbn; auto; congruence.
          + destruct (state_eqb (st U m) Executing && onstart U m); repeat constructor. }
      destruct I' as (I' & QO). apply plain_step; auto; try congruence.
      + intros. unfold credit. rewrite C8, C3. cbn. lia.
      + intros _ _ _ (_ & X & _). congruence.
  Qed.

  Lemma create_inv nack pipe qsize : inv (create U nack pipe qsize).
  Proof.
    split; [|split; reflexivity]. constructor; cbn; auto; try congruence; try discriminate.
    - match goal with |- _ <= (if ?l =? 0 then 1 else ?l) => destruct l; cbn; lia end.
    - exists []. now left.
  Qed.

  (** ** Sequences of steps *)
  Lemma run_cons m e es m2 o2 : run m (e :: es) = Some (m2, o2) ->
    exists m1 o1 o', step m e = Some (m1, o1) /\ run m1 es = Some (m2, o') /\ o2 = o1 ++ o'.
  Proof.
    cbn [ServerMonModel.run]. destruct (step m e) as [(m1, o1)|]; [|discriminate]. destruct (run m1 es) as [(m', o')|] eqn:R; [|discriminate].
    intro E. injection E as <- <-. eauto 6.
  Qed.
  Lemma run_inv es : forall m m' o, run m es = Some (m', o) -> inv m -> inv m' /\ limit U m' = limit U m /\ pipeline U m' = pipeline U m.
  Proof.
    induction es as [|e es IH]; intros m m' o R I; [injection R as <- <-; auto|].
    apply run_cons in R. destruct R as (m1 & o1 & o' & S & R & ->). pose proof (step_ok _ _ _ _ S I) as F.
    destruct (IH _ _ _ R (s_inv _ _ _ _ F)) as (A & B & C). split; [exact A|]. rewrite B, C. split; [apply (s_limit _ _ _ _ F)|apply (s_pipe _ _ _ _ F)].
  Qed.

  (** groups of updates *)
  Definition grouped (g : list (list U)) (us : list U) : Prop := Forall2 (merged U squash) g us.
  Lemma grouped_snoc g us u : grouped g us -> grouped (g ++ [[u]]) (us ++ [u]).
  Proof. intro H. apply Forall2_app; [exact H|]. constructor; [reflexivity|constructor]. Qed.
  Lemma grouped_merge g us b u : grouped g (us ++ [b]) -> exists g', grouped g' (us ++ [squash b u]) /\ concat g' = concat g ++ [u].
  Proof.
    intro H. apply Forall2_app_inv_r in H. destruct H as (g1 & g2 & H1 & H2 & ->). inversion H2 as [|x y l l' M N]; subst. inversion N; subst. clear H2 N.
    destruct x as [|a r]; [easy|]. cbn in M. exists (g1 ++ [(a :: r) ++ [u]]). split.
    - apply Forall2_app; [exact H1|]. constructor; [|constructor]. cbn. rewrite fold_left_app. cbn. now rewrite M.
    - rewrite !concat_app. cbn. rewrite !app_nil_r, <- app_assoc. reflexivity.
  Qed.
  Lemma pending_cons x q : pending_of (x :: q) = match x with Some u => [u] | None => [] end ++ pending_of q.
  Proof. destruct x; reflexivity. Qed.

  Lemma run_groups es : forall m m' o pre acc, run m es = Some (m', o) -> inv m ->
    (exists g, grouped g (pre ++ pending m) /\ concat g = acc) ->
    exists g, grouped g (pre ++ sent o ++ pending m') /\ concat g = acc ++ accepted U real squash m es.
  Proof.
    induction es as [|e es IH]; intros m m' o pre acc R I (g & G & CG).
    { injection R as <- <-. exists g. cbn. rewrite app_nil_r. auto. }
    apply run_cons in R. destruct R as (m1 & o1 & o' & S & R & ->). pose proof (step_ok _ _ _ _ S I) as F.
    cbn [accepted]. rewrite S, sent_app, app_assoc, <- (app_assoc pre), app_assoc.
    assert (NX : exists g, grouped g ((pre ++ sent o1) ++ pending m1) /\ concat g = acc ++ takes U real m e).
    { destruct (s_effect _ _ _ _ F) as [Q QU FN TK _ _|val maybe force EE OE PE MQ|x O QU FN TK NS MQ SS _].
      - exists g. rewrite quiet_sent by exact Q. unfold pending, ServerMonSpec.pending in *. rewrite QU, TK, !app_nil_r. auto.
      - rewrite OE. cbn [sent ServerMonSpec.sent]. rewrite app_nil_r. subst e. unfold pending, ServerMonSpec.pending in *.
        destruct PE as [QU FN TK _ NS|u -> QU FN FM RU NS TK _|u q b -> QU QU' FN FM RU NS TK _| -> QU FN FM NS].
        + exists g. rewrite QU, TK, app_nil_r. auto.
        + exists (g ++ [[u]]). rewrite QU, TK, pending_app, app_assoc, concat_app. cbn. split; [now apply grouped_snoc|]. now rewrite CG.
        + rewrite QU', TK, pending_app. rewrite QU, pending_app in G. cbn in *. rewrite app_assoc in *.
          destruct (grouped_merge _ _ _ u G) as (g' & G' & CG'). exists g'. rewrite CG', CG. auto.
        + exists g. rewrite QU, pending_app. cbn. rewrite !app_nil_r. auto.
      - exists g. rewrite TK, app_nil_r. split; [|exact CG]. unfold pending, ServerMonSpec.pending in *. rewrite QU, pending_cons in G. rewrite app_assoc in G.
        replace (sent o1) with (match x with Some u => [u] | None => [] end); [exact G|]. rewrite O. destruct x; [reflexivity|]. destruct (st U m); reflexivity. }
    destruct (IH m1 m' o' (pre ++ sent o1) (acc ++ takes U real m e) R (s_inv _ _ _ _ F) NX) as (g' & G' & CG').
    exists g'. rewrite <- !app_assoc in *. auto.
  Qed.

  (** ** The bound *)
  Fixpoint forced (es : list event) : nat :=
    match es with [] => 0 | EPost _ (Some _) _ true :: es' => S (forced es') | _ :: es' => forced es' end.
  Lemma pending_length q : length (pending_of q) <= length q.
  Proof. induction q as [|[u|] q IH]; cbn; lia. Qed.
  Lemma run_bound es : forall m m' o n, run m es = Some (m', o) -> inv m -> length (pending m) <= limit U m + n ->
    length (pending m') <= limit U m + n + forced es.
  Proof.
    induction es as [|e es IH]; intros m m' o n R I B; [injection R as <- <-; cbn; lia|].
    apply run_cons in R. destruct R as (m1 & o1 & o' & S & R & ->). pose proof (step_ok _ _ _ _ S I) as F.
    rewrite <- (s_limit _ _ _ _ F) in *. unfold pending, ServerMonSpec.pending in *.
    assert (G : forall k, length (pending_of (queue U m1)) <= limit U m1 + n + k -> k + forced es <= forced (e :: es) ->
      length (pending_of (queue U m')) <= limit U m1 + n + forced (e :: es)).
    { intros k H K. rewrite <- Nat.add_assoc in H. specialize (IH m1 m' o' (n + k) R (s_inv _ _ _ _ F) H). lia. }
    assert (FC : forall e', forced es <= forced (e' :: es)).
    { intro e'. cbn. destruct e' as [[?|] ? [|]|?| | | | | | | | | |]; lia. }
    destruct (s_effect _ _ _ _ F) as [Q QU FN TK _ _|val maybe force EE OE PE MQ|x O QU FN TK NS MQ SS _].
    - apply (G 0); [rewrite QU; lia|]. specialize (FC e). lia.
    - subst e. destruct PE as [QU FN TK _ NS|u -> QU FN FM RU NS TK L|u q b -> QU QU' FN FM RU NS TK _| -> QU FN FM NS].
      + apply (G 0); [rewrite QU; lia|]. specialize (FC (EPost U val maybe force)). lia.
      + rewrite QU in *. pose proof (pending_length (queue U m)). destruct L as [-> |L].
        * apply (G 1); [rewrite pending_app, app_length; cbn; lia|cbn; lia].
        * apply (G 0); [rewrite pending_app, app_length; cbn; rewrite (s_limit _ _ _ _ F); lia|]. specialize (FC (EPost U (Some u) maybe force)). lia.
      + apply (G 0); [rewrite QU'; rewrite QU in B; rewrite pending_app, app_length in *; cbn in *; lia|]. specialize (FC (EPost U (Some u) maybe force)). lia.
      + apply (G 0); [rewrite QU, pending_app, app_length; cbn; lia|]. specialize (FC (EPost U None maybe force)). lia.
    - apply (G 0); [rewrite QU, pending_cons, app_length in B; lia|]. specialize (FC e). lia.
  Qed.

  (** ** The end *)
  Lemma run_over es : forall m m' o, run m es = Some (m', o) -> inv m -> finished U m = true -> queue U m = [] ->
    sent o = [] /\ ~ In (OFinish U) o /\ queue U m' = [] /\ finished U m' = true.
  Proof.
    induction es as [|e es IH]; intros m m' o R I FI Q; [injection R as <- <-; cbn; auto|].
    apply run_cons in R. destruct R as (m1 & o1 & o' & S & R & ->). pose proof (step_ok _ _ _ _ S I) as F.
    assert (H : finished U m1 = true /\ queue U m1 = [] /\ sent o1 = [] /\ ~ In (OFinish U) o1).
    { destruct (s_effect _ _ _ _ F) as [QO QU FN TK _ _|val maybe force EE OE PE MQ|x O QU FN TK NS MQ SS _].
      - rewrite QU, FN. repeat split; auto; [now apply quiet_sent|]. intro X. unfold quiet in QO. rewrite Forall_forall in QO. apply (QO _ X).
      - destruct PE as [QU FN TK _ NS|u _ _ _ FM _ _ _ _|u q b _ _ _ _ FM _ _ _ _| _ _ _ FM _]; try congruence.
        rewrite QU, FN, OE. cbn. repeat split; auto. intros [X|X]; [discriminate|exact X].
      - congruence. }
    destruct H as (H1 & H2 & H3 & H4). destruct (IH _ _ _ R (s_inv _ _ _ _ F) H1 H2) as (J1 & J2 & J3 & J4).
    rewrite sent_app, H3, J1. repeat split; auto. intro X. apply in_app_or in X. tauto.
  Qed.
  Lemma run_end es : forall m m' o, run m es = Some (m', o) -> inv m -> In (OFinish U) o ->
    exists pre post, o = pre ++ OFinish U :: post /\ ~ In (OFinish U) pre /\ ~ In (OFinish U) post /\ sent post = [] /\ queue U m' = [].
  Proof.
    induction es as [|e es IH]; intros m m' o R I X; [injection R as <- <-; easy|].
    apply run_cons in R. destruct R as (m1 & o1 & o' & S & R & ->). pose proof (step_ok _ _ _ _ S I) as F.
    destruct (s_effect _ _ _ _ F) as [QO QU FN TK _ _|val maybe force EE OE PE MQ|x O QU FN TK NS MQ SS _].
    - assert (N : ~ In (OFinish U) o1) by (intro Y; unfold quiet in QO; rewrite Forall_forall in QO; apply (QO _ Y)).
      apply in_app_or in X. destruct X as [X|X]; [tauto|]. destruct (IH _ _ _ R (s_inv _ _ _ _ F) X) as (pre & post & -> & A & B & C & D).
      exists (o1 ++ pre), post. rewrite <- app_assoc. repeat split; auto. intro Y. apply in_app_or in Y. tauto.
    - rewrite OE in *. destruct X as [X|X]; [discriminate|]. destruct (IH _ _ _ R (s_inv _ _ _ _ F) X) as (pre & post & -> & A & B & C & D).
      eexists (_ :: pre), post. split; [reflexivity|]. repeat split; auto. intros [Y|Y]; [discriminate|tauto].
    - assert (CASE : x = None /\ st U m = Executing \/ ~ In (OFinish U) o1).
      { rewrite O. destruct x; [right; intros [Y|Y]; [discriminate|exact Y]|]. destruct (st U m); auto; right; (intros [Y|Y]; [discriminate|exact Y]). }
      destruct CASE as [(-> & SE)|N].
      + rewrite SE in O. rewrite O in *. destruct I as (I0 & _). destruct (queue_tail (finished U m) None (queue U m1)) as (_ & _ & H).
        * pose proof (i_queue _ I0) as Y. rewrite QU in Y. exact Y.
        * pose proof (i_fin _ I0) as Y. rewrite QU in Y. exact Y.
        * destruct (H eq_refl) as (Q1 & F1). rewrite <- FN in F1.
          destruct (run_over _ _ _ _ R (s_inv _ _ _ _ F) F1 Q1) as (A & B & C & D).
          exists [], o'. repeat split; auto.
      + apply in_app_or in X. destruct X as [X|X]; [tauto|]. destruct (IH _ _ _ R (s_inv _ _ _ _ F) X) as (pre & post & -> & A & B & C & D).
        exists (o1 ++ pre), post. rewrite <- app_assoc. repeat split; auto. intro Y. apply in_app_or in Y. tauto.
  Qed.
  Lemma run_finished es : forall m m' o, run m es = Some (m', o) -> inv m -> finished U m = false -> finished U m' = true ->
    exists a b, In (EPost U None a b) es.
  Proof.
    induction es as [|e es IH]; intros m m' o R I FA FB; [injection R as <- <-; congruence|].
    apply run_cons in R. destruct R as (m1 & o1 & o' & S & R & ->). pose proof (step_ok _ _ _ _ S I) as F.
    destruct (finished U m1) eqn:F1.
    - destruct (s_effect _ _ _ _ F) as [QO QU FN TK _ _|val maybe force EE OE PE MQ|x O QU FN TK NS MQ SS _]; try congruence.
      destruct PE as [QU FN TK _ NS|u _ _ FN FM _ _ _ _|u q b _ _ _ FN FM _ _ _ _| -> _ _ FM _]; try congruence. subst e. exists maybe, force. now left.
    - destruct (IH _ _ _ R (s_inv _ _ _ _ F) F1 FB) as (a & b & X). exists a, b. now right.
  Qed.

  (** ** The window *)
  Lemma acks_cons e es : acks U (e :: es) = acks U [e] + acks U es.
  Proof. destruct e as [| | | |[n|] ? ?| | | | | | |]; cbn; lia. Qed.
  Lemma stops_cons e es : stops U (e :: es) = stops U [e] + stops U es.
  Proof. destruct e as [| | | |? [[|]|] ?| | | | | | |]; cbn; lia. Qed.
  Lemma run_window es : forall m m' o, run m es = Some (m', o) -> inv m -> finished U m = false -> pipeline U m = true -> no_finish U es ->
    length (sent o) + credit m' <= credit m + acks U es + stops U es.
  Proof.
    induction es as [|e es IH]; intros m m' o R I FA P NF; [injection R as <- <-; cbn; lia|].
    apply run_cons in R. destruct R as (m1 & o1 & o' & S & R & ->). pose proof (step_ok _ _ _ _ S I) as F.
    assert (F1 : finished U m1 = false).
    { destruct (finished U m1) eqn:X; [|reflexivity]. exfalso.
      destruct (run_finished [e] m m1 o1) as (a & b & Y); auto; [cbn [ServerMonModel.run]; rewrite S, app_nil_r; reflexivity|].
      destruct Y as [Y|[]]. apply (NF a b). now left. }
    rewrite sent_app, app_length, acks_cons, stops_cons. pose proof (s_credit _ _ _ _ F FA P).
    assert (IH' : length (sent o') + credit m' <= credit m1 + acks U es + stops U es).
    { apply IH with (1 := R); auto; [apply (s_inv _ _ _ _ F)|rewrite (s_pipe _ _ _ _ F); exact P|]. intros a b X. apply (NF a b). now right. }
    lia.
  Qed.

  (** ** Progress *)
  Lemma run_kicked es : forall m m' o, run m es = Some (m', o) -> inv m -> pipeline U m = false \/ no_bare_ack U es -> kicked m -> kicked m'.
  Proof.
    induction es as [|e es IH]; intros m m' o R I H K; [injection R as <- <-; exact K|].
    apply run_cons in R. destruct R as (m1 & o1 & o' & S & R & ->). pose proof (step_ok _ _ _ _ S I) as F.
    apply IH with (1 := R); [apply (s_inv _ _ _ _ F)| |].
    - rewrite (s_pipe _ _ _ _ F). destruct H as [H|H]; [auto|right]. intros n r d X. apply (H n r d). now right.
    - apply (s_kicked _ _ _ _ F); [|exact K]. destruct H as [H|H]; [auto|right]. intros n r d ->. apply (H n r d). now left.
  Qed.
  Lemma quiescent_idle m : inv m -> kicked m -> quiescent U m -> st U m = Executing ->
    queue U m = [] \/ (pipeline U m = true /\ window U m = 0).
  Proof.
    intros (I & C & _) K (T & B & MD & A) S. specialize (C A). unfold count in C. rewrite T, B in C. cbn in C.
    destruct (scheduled U m) eqn:SC; [discriminate|]. destruct (queue U m) as [|x q] eqn:Q; [auto|right].
    destruct (pipeline U m) eqn:P, (window U m) eqn:W; auto; exfalso; rewrite K in SC; try discriminate; auto; split; auto; split; auto;
      rewrite Q; split; auto; try discriminate; right; rewrite W; discriminate.
  Qed.

  (** ** Nothing malformed *)
  Lemma run_wellformed es : forall m m' o, run m es = Some (m', o) -> inv m -> ~ In (OEmpty U) o /\ ~ In (OAssert U) o.
  Proof.
    induction es as [|e es IH]; intros m m' o R I; [injection R as <- <-; cbn; auto|].
    apply run_cons in R. destruct R as (m1 & o1 & o' & S & R & ->). pose proof (step_ok _ _ _ _ S I) as F.
    assert (H : ~ In (OEmpty U) o1 /\ ~ In (OAssert U) o1).
    { destruct (s_effect _ _ _ _ F) as [QO QU FN TK _ _|val maybe force EE OE PE MQ|x O QU FN TK NS MQ SS _].
      - unfold quiet in QO. rewrite Forall_forall in QO. split; intro X; apply (QO _ X).
      - rewrite OE. split; intros [X|X]; try discriminate; exact X.
      - rewrite O. destruct x; [|destruct (st U m)]; split; intros [X|X]; try discriminate; exact X. }
    destruct (IH _ _ _ R (s_inv _ _ _ _ F)) as (A & B). destruct H. split; intro X; apply in_app_or in X; tauto.
  Qed.
  Definition is_stop (e : event) : bool := match e with EMsg _ _ (Some false) _ => true | _ => false end.
End Proofs.

Section More.
  Variable U : Type.
  Variable real : U -> bool.
  Variable squash : U -> U -> U.
  Notation step := (step U real squash).
  Notation run := (run U real squash).
  Notation inv := (inv U).

  (** ** Statistics *)
  Lemma step_count m e m' o : step m e = Some (m', o) -> inv m -> e <> EStats U true ->
    nsquash U m' + length (sent U o) + length (pending U m') = nsquash U m + length (pending U m) + length (takes U real m e) /\
    maxqueue U m' = max (maxqueue U m) (if length (queue U m) <? length (queue U m') then length (queue U m') else 0).
  Proof.
    intros S I NR. pose proof (step_ok _ _ _ _ _ _ _ S I) as F. unfold pending.
    destruct (s_effect _ _ _ _ _ _ _ F) as [Q QU FN TK NQ _|val maybe force EE OE PE MQ|x O QU FN TK NS MQ SS _].
    - rewrite (quiet_sent _ _ Q), QU, TK. destruct (NQ NR) as (-> & ->). cbn [length]. rewrite Nat.ltb_irrefl. lia.
    - split; [|exact MQ]. rewrite OE. cbn [sent ServerMonSpec.sent length]. subst e.
      destruct PE as [QU FN TK _ NS|u -> QU FN FM RU NS TK _|u q b -> QU QU' FN FM RU NS TK _| -> QU FN FM NS].
      + rewrite QU, NS, TK. cbn [length]. lia.
      + rewrite QU, NS, TK, pending_app, app_length. cbn [length pending_of]. lia.
      + rewrite QU', QU, NS, TK, !pending_app, !app_length. cbn [length pending_of]. lia.
      + rewrite QU, NS, pending_app, app_length. cbn [length pending_of takes]. lia.
    - rewrite NS, MQ, TK, QU, pending_cons, O, app_length. destruct (Nat.ltb_spec (length (x :: queue U m')) (length (queue U m'))); [cbn [length] in *; lia|].
      destruct x; [|destruct (st U m)]; cbn [length sent]; lia.
  Qed.
  Fixpoint peak (m : mon U) (es : list (event U)) : nat :=
    max (length (queue U m)) (match es with [] => 0 | e :: es' => match step m e with Some (m', _) => peak m' es' | None => 0 end end).
  Lemma peak_queue m es : length (queue U m) <= peak m es.
  Proof. destruct es; cbn; lia. Qed.
  Lemma run_count es : forall m m' o, run m es = Some (m', o) -> inv m -> no_reset U es ->
    length (queue U m) <= maxqueue U m ->
    nsquash U m' + length (sent U o) + length (pending U m') = nsquash U m + length (pending U m) + length (accepted U real squash m es) /\
    maxqueue U m' = max (maxqueue U m) (peak m es).
  Proof.
    induction es as [|e es IH]; intros m m' o R I NR LM; [injection R as <- <-; cbn; lia|].
    apply run_cons in R. destruct R as (m1 & o1 & o' & S & R & ->).
    destruct (step_count _ _ _ _ S I) as (A & B); [intros ->; apply NR; now left|].
    assert (LM1 : length (queue U m1) <= maxqueue U m1).
    { rewrite B. destruct (Nat.ltb_spec (length (queue U m)) (length (queue U m1))); lia. }
    destruct (IH _ _ _ R) as (C & D); [apply (s_inv _ _ _ _ _ _ _ (step_ok _ _ _ _ _ _ _ S I))|intro X; apply NR; now right|exact LM1|].
    cbn [accepted peak]. rewrite S, app_length, sent_app, app_length. split; [lia|].
    rewrite D, B. pose proof (peak_queue m1 es). destruct (Nat.ltb_spec (length (queue U m)) (length (queue U m1))); lia.
  Qed.
End More.
