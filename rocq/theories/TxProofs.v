(** Proofs on the output buffer of a server connection. *)
From Coq Require Import List Bool Arith Lia.
From Verif Require Import TxModel.
Import ListNotations.

Definition names (i : nat) (t : task) : Prop := t = TTry i \/ t = TReply i.
Definition waits (i : nat) (s : conn) : Prop := In i (backlog s) \/ exists t, In t (tasks s) /\ names i t.

Section Conn.
  Variables limit lim : nat.
  Hypothesis LIM : 0 < limit.

  Record inv (s : conn) : Prop := {
    inv_queue : forall i, queue (subs s i) <> [] -> sched (subs s i) = true;
    inv_sched : forall i, sched (subs s i) = true -> waits i s;
    inv_stop : reading s = false -> limit / 2 < tx s \/ due s = true;
    inv_back : reading s = true -> backlog s = [] }.

  (** the first two, of a state in which [l] is still to be treated *)
  Definition half (l : list nat) (s : conn) : Prop :=
    (forall i, queue (subs s i) <> [] -> sched (subs s i) = true) /\
    (forall i, sched (subs s i) = true -> In i l \/ exists t, In t (tasks s) /\ names i t).

  Lemma do_reply_half l i s : half (i :: l) s -> half l (do_reply i s).
  Proof.
    intros (A & B). unfold do_reply. destruct (queue (subs s i)) as [|n q] eqn:Q.
    - split; intro j; cbn [subs set_sub queue sched tasks]; destruct (Nat.eqb_spec j i) as [->|N]; cbn [queue sched]; try easy; auto.
      intro H. destruct (B j H) as [[H'|H']|H']; [congruence|auto|auto].
    - destruct q as [|n2 q2]; cbn [negb].
      + split; intro j; cbn [subs set_sub set_tx queue sched tasks]; destruct (Nat.eqb_spec j i) as [->|N]; cbn [queue sched]; try easy; auto.
        intro H. destruct (B j H) as [[H'|H']|H']; [congruence|auto|auto].
      + split; intro j; cbn [subs set_sub set_tx set_tasks queue sched tasks]; destruct (Nat.eqb_spec j i) as [->|N]; cbn [queue sched]; try easy; auto.
        * intros _. right. exists (TReply i). split; [apply in_or_app; right; now left|now right].
        * intro H. destruct (B j H) as [[H'|H']|(t & T & H')]; [congruence|auto|]. right. exists t. split; [apply in_or_app; now left|exact H'].
  Qed.
  Lemma do_reply_same i s : reading (do_reply i s) = reading s /\ due (do_reply i s) = due s /\ backlog (do_reply i s) = backlog s /\ tx s <= tx (do_reply i s).
  Proof. clear LIM. unfold do_reply. destruct (queue (subs s i)) as [|n [|]]; cbn; repeat split; lia. Qed.
  Lemma flush_half l s : half l s -> half (backlog (flush limit l s)) (flush limit l s) /\ reading (flush limit l s) = reading s /\ due (flush limit l s) = due s /\
    (tx (flush limit l s) < limit -> backlog (flush limit l s) = []).
  Proof.
    revert s. induction l as [|i l IH]; intros s H; cbn [flush].
    - split; [exact H|]. repeat split.
    - destruct (Nat.ltb_spec (tx s) limit) as [L|L].
      + destruct (do_reply_same i s) as (R & D & _ & _). destruct (IH (do_reply i s) (do_reply_half l i s H)) as (A & B & C & E). rewrite <- R, <- D. auto.
      + split; [exact H|]. repeat split. cbn [tx set_backlog]. lia.
  Qed.
  Lemma inv_half s : inv s -> half (backlog s) s.
  Proof. intros [A B _ _]. split; [exact A|exact B]. Qed.
  Lemma half_limit : limit / 2 < limit.
  Proof. apply Nat.div_lt; lia. Qed.

  Lemma inv_step s e s' : inv s -> step limit lim s e = Some s' -> inv s'.
  Proof.
    intros I. pose proof I as [A B C D]. destruct e as [i n|replies| |n|]; cbn [step].
    - intros [= <-]. unfold post, maybe_reply.
      set (q' := if length (queue (subs s i)) <? lim then queue (subs s i) ++ [n] else removelast (queue (subs s i)) ++ [n]).
      assert (NE : q' <> []) by (unfold q'; destruct (_ <? _); intro X; apply app_eq_nil in X; destruct X; discriminate).
      cbn [subs set_sub queue sched]. rewrite Nat.eqb_refl. cbn [queue sched].
      destruct (sched (subs s i)) eqn:SC; cbn [negb andb].
      + constructor; cbn [subs set_sub set_tasks reading due tx backlog].
        * intros j. destruct (Nat.eqb_spec j i) as [->|N]; cbn [queue sched]; auto.
        * intros j. destruct (Nat.eqb_spec j i) as [->|N]; cbn [queue sched]; intro H; [exact (B i SC)|exact (B j H)].
        * exact C.
        * exact D.
      + destruct q' as [|n' r] eqn:Q; [contradiction|]. cbn [negb andb]. constructor; cbn [subs set_sub set_tasks reading due tx backlog].
        * intros j. destruct (Nat.eqb_spec j i) as [->|N]; cbn [queue sched]; auto.
        * intros j. destruct (Nat.eqb_spec j i) as [->|N]; cbn [queue sched]; intro H.
          -- right. exists (TTry i). cbn [tasks]. split; [apply in_or_app; right; now left|now left].
          -- destruct (B j H) as [X|(t & T & X)]; [now left|right; exists t; cbn [tasks]; split; [apply in_or_app; now left|exact X]].
        * exact C.
        * exact D.
    - destruct (reading s) eqn:R; [|discriminate]. intros [= <-]. cbn [tx set_tx]. destruct (Nat.leb_spec limit (tx s + list_sum replies)) as [L|L].
      + constructor; cbn [subs set_sub set_tasks set_tx set_due set_backlog set_reading reading due tx backlog tasks]; [exact A|exact B| |discriminate]. intros _. left. pose proof half_limit. lia.
      + constructor; cbn [subs set_sub set_tasks set_tx set_due set_backlog set_reading reading due tx backlog tasks]; [exact A|exact B|congruence|auto].
    - destruct (tasks s) as [|t r] eqn:T; [discriminate|]. intros [= <-].
      assert (DO : forall i, names i t -> inv (do_reply i (set_tasks r s))).
      { intros i N. destruct (do_reply_same i (set_tasks r s)) as (R1 & R2 & R3 & R4). cbn [subs set_tasks reading due tx backlog tasks] in R1, R2, R3, R4.
        assert (H : half (i :: backlog s) (set_tasks r s)).
        { split; [exact A|]. intros j H. destruct (B j H) as [X|(t' & X & Y)]; [left; now right|]. rewrite T in X. destruct X as [<-|X]; [|right; exists t'; auto].
          left. left. destruct N as [-> | ->], Y as [Y|Y]; congruence. }
        apply do_reply_half in H. destruct H as (H1 & H2). constructor; [exact H1| | |].
        - intros j X. destruct (H2 j X) as [Y|Y]; [left; rewrite R3; exact Y|right; exact Y].
        - rewrite R1, R2. intro X. destruct (C X); [left; lia|auto].
        - rewrite R1, R3. exact D. }
      destruct t as [i|i]; [|apply DO; now right]. destruct (reading s) eqn:R; [apply DO; now left|].
      constructor; cbn [subs set_sub set_tasks set_tx set_due set_backlog set_reading reading due tx backlog tasks]; [exact A| | |congruence].
      + intros j H. destruct (B j H) as [X|(t' & X & Y)]; [left; apply in_or_app; now left|]. rewrite T in X. destruct X as [<-|X]; [|right; exists t'; auto].
        left. apply in_or_app. right. destruct Y as [Y|Y]; [injection Y as ->; now left|discriminate].
      + intros _. exact (C eq_refl).
    - destruct ((0 <? n) && (n <=? tx s)) eqn:G; [|discriminate]. intros [= <-]. constructor; cbn [subs set_sub set_tasks set_tx set_due set_backlog set_reading reading due tx backlog tasks]; [exact A|exact B| |exact D].
      intro R. assert (L : low_water limit s = limit / 2) by (unfold low_water; now rewrite R).
      destruct (Nat.leb_spec (tx s - n) (low_water limit s)); [right; apply orb_true_r|left; lia].
    - destruct (due s) eqn:DU; [|discriminate]. intros [= <-].
      assert (H : half (backlog s) (set_due false s)) by (split; [exact A|exact B]).
      destruct (flush_half _ _ H) as ((H1 & H2) & RD & DD & BK). cbn [reading due set_due] in RD, DD.
      destruct (Nat.ltb_spec (tx (flush limit (backlog s) (set_due false s))) limit) as [L|L].
      + constructor; cbn [subs tx reading due backlog tasks set_reading]; [exact H1|exact H2|discriminate|auto].
      + constructor; [exact H1|exact H2| |].
        * intros _. left. pose proof half_limit. lia.
        * rewrite RD. intro R. specialize (D R). rewrite D. reflexivity.
  Qed.
  Lemma inv_run es s s' : inv s -> run limit lim s es = Some s' -> inv s'.
  Proof.
    revert s. induction es as [|e es IH]; cbn [run]; intros s I R; [congruence|]. destruct (step limit lim s e) as [s1|] eqn:E; [|discriminate].
    eapply IH; [eapply inv_step; eauto|exact R].
  Qed.
  Lemma inv_fresh : inv fresh.
  Proof. constructor; cbn; try easy. Qed.

  (** nothing is possible without new posts or requests *)
  Lemma settled s : inv s -> tasks s = [] -> due s = false -> tx s = 0 ->
    reading s = true /\ backlog s = [] /\ forall i, queue (subs s i) = [] /\ sched (subs s i) = false.
  Proof.
    intros [A B C D] T DU TX. assert (R : reading s = true) by (destruct (reading s) eqn:R; [reflexivity|destruct (C eq_refl); [lia|congruence]]).
    specialize (D R). split; [exact R|]. split; [exact D|]. intro i.
    assert (S : sched (subs s i) = false). { destruct (sched (subs s i)) eqn:S; [|reflexivity]. exfalso. destruct (B i S) as [X|(t & X & _)]; [rewrite D in X; exact X|rewrite T in X; exact X]. }
    split; [|exact S]. destruct (queue (subs s i)) eqn:Q; [reflexivity|]. rewrite A in S; congruence.
  Qed.

  (** ** Progress *)
  Definition inside (m : nat) (s : conn) : Prop := forall i, m <= i -> queue (subs s i) = [].
  Definition wq (q : list nat) : nat := list_sum (map (fun n => 2 * n + 2) q).
  Fixpoint wsubs (m : nat) (f : nat -> sub) : nat := match m with O => 0 | S k => wq (queue (f k)) + wsubs k f end.
  Definition wt (t : task) : nat := match t with TTry _ => 2 | TReply _ => 1 end.
  Definition weight (m : nat) (s : conn) : nat :=
    2 * tx s + (if due s then 1 else 0) + length (backlog s) + list_sum (map wt (tasks s)) + wsubs m (subs s).

  Lemma wsubs_ext m f g : (forall i, i < m -> queue (f i) = queue (g i)) -> wsubs m f = wsubs m g.
  Proof. induction m as [|m IH]; cbn; intro H; [reflexivity|]. rewrite H, IH by auto. reflexivity. Qed.
  Lemma wsubs_set m f i x : i < m -> wsubs m (fun j => if j =? i then x else f j) + wq (queue (f i)) = wsubs m f + wq (queue x).
  Proof.
    induction m as [|m IH]; intro L; [lia|]. cbn [wsubs]. destruct (Nat.eqb_spec m i) as [->|N].
    - rewrite (wsubs_ext i (fun j => if j =? i then x else f j) f). { lia. }
      intros j J. destruct (Nat.eqb_spec j i); [lia|reflexivity].
    - specialize (IH ltac:(lia)). lia.
  Qed.
  Lemma wsubs_out m f i x : m <= i -> wsubs m (fun j => if j =? i then x else f j) = wsubs m f.
  Proof. intro L. apply wsubs_ext. intros j J. destruct (Nat.eqb_spec j i); [lia|reflexivity]. Qed.

  Lemma do_reply_weight m i s : inside m s -> inside m (do_reply i s) /\ weight m (do_reply i s) <= weight m s.
  Proof.
    intro I. unfold do_reply. destruct (queue (subs s i)) as [|n q] eqn:Q.
    - split.
      + intros j J. cbn. destruct (Nat.eqb_spec j i); [reflexivity|now apply I].
      + unfold weight. cbn [tx due backlog tasks subs set_sub]. rewrite (wsubs_ext m _ (subs s)); [lia|]. intros j _. destruct (Nat.eqb_spec j i) as [->|]; [now rewrite Q|reflexivity].
    - assert (L : i < m). { destruct (Nat.lt_ge_cases i m) as [L|L]; [exact L|]. rewrite (I i L) in Q. discriminate. }
      assert (W : forall b, wsubs m (fun j => if j =? i then {| queue := q; sched := b |} else subs s j) + (2 * n + 2) = wsubs m (subs s)).
      { intro b. pose proof (wsubs_set m (subs s) i {| queue := q; sched := b |} L) as W. rewrite Q in W. unfold wq in W. cbn [queue map list_sum fold_right] in W. fold list_sum in W. unfold list_sum in *. cbn [fold_right] in W. lia. }
      split.
      + intros j J. destruct q; cbn; (destruct (Nat.eqb_spec j i); [lia|now apply I]).
      + unfold weight. destruct q as [|n2 q2]; cbn [tx due backlog tasks subs set_sub set_tx set_tasks negb].
        * specialize (W false). lia.
        * specialize (W true). rewrite map_app, list_sum_app. cbn [map list_sum fold_right wt]. unfold list_sum. cbn [fold_right map wt]. fold list_sum. unfold list_sum in *. lia.
  Qed.
  Lemma flush_weight m l s : inside m s -> inside m (flush limit l s) /\ weight m (flush limit l s) + length (backlog s) <= weight m s + length l.
  Proof.
    revert s. induction l as [|i l IH]; intros s I; cbn [flush].
    - split; [exact I|]. unfold weight. cbn [tx due backlog tasks subs set_backlog length]. lia.
    - destruct (tx s <? limit).
      + destruct (do_reply_weight m i s I) as (I1 & W1). destruct (IH _ I1) as (I2 & W2). split; [exact I2|].
        destruct (do_reply_same i s) as (_ & _ & BK & _). rewrite BK in W2. cbn [length]. lia.
      + split; [exact I|]. unfold weight. cbn [tx due backlog tasks subs set_backlog length]. lia.
  Qed.
  Definition quiet (e : event) : bool := match e with Work | Drain _ | Write => true | _ => false end.
  Lemma step_weight m s e s' : inside m s -> quiet e = true -> step limit lim s e = Some s' -> inside m s' /\ weight m s' < weight m s.
  Proof.
    intros I Q. destruct e as [i n|replies| |n|]; try discriminate Q; cbn [step].
    - destruct (tasks s) as [|t r] eqn:T; [discriminate|]. intros [= <-].
      assert (W0 : weight m (set_tasks r s) + wt t = weight m s).
      { unfold weight. rewrite T. cbn [tx due backlog tasks subs set_tasks map list_sum fold_right]. unfold list_sum. cbn [fold_right map]. lia. }
      destruct t as [i|i]; cbn [wt] in W0; [destruct (reading s)|].
      + destruct (do_reply_weight m i (set_tasks r s) I) as (I1 & W1). split; [exact I1|lia].
      + split; [exact I|]. unfold weight in *. cbn [tx due backlog tasks subs set_tasks set_backlog] in *. rewrite app_length. cbn [length]. lia.
      + destruct (do_reply_weight m i (set_tasks r s) I) as (I1 & W1). split; [exact I1|lia].
    - destruct ((0 <? n) && (n <=? tx s)) eqn:G; [|discriminate]. intros [= <-]. apply andb_true_iff in G as [G1 G2]. apply Nat.ltb_lt in G1. apply Nat.leb_le in G2.
      split; [exact I|]. unfold weight. cbn [tx due backlog tasks subs set_due set_tx]. destruct (due s || _), (due s); lia.
    - destruct (due s) eqn:DU; [|discriminate]. intros [= <-].
      destruct (flush_weight m (backlog s) (set_due false s)) as (I1 & W1); [exact I|].
      assert (W0 : weight m (set_due false s) + 1 = weight m s) by (unfold weight; cbn [tx due backlog tasks subs set_due]; rewrite DU; lia).
      cbn [backlog set_due] in W1. destruct (_ <? limit).
      + split; [exact I1|]. replace (weight m (set_reading true _)) with (weight m (flush limit (backlog s) (set_due false s))) by reflexivity. lia.
      + split; [exact I1|]. lia.
  Qed.
  Lemma run_weight m es s s' : inside m s -> forallb quiet es = true -> run limit lim s es = Some s' -> inside m s' /\ length es + weight m s' <= weight m s.
  Proof.
    revert s. induction es as [|e es IH]; cbn [run forallb length]; intros s I Q R; [injection R as <-; split; [exact I|lia]|].
    apply andb_true_iff in Q as [Q1 Q2]. destruct (step limit lim s e) as [s1|] eqn:E; [|discriminate].
    destruct (step_weight m s e s1 I Q1 E) as (I1 & W1). destruct (IH s1 I1 Q2 R) as (I2 & W2). split; [exact I2|]. lia.
  Qed.
  (** ** Nothing is lost *)
  Fixpoint osubs (m : nat) (f : nat -> sub) : nat := match m with O => 0 | S k => list_sum (queue (f k)) + osubs k f end.
  Definition owed (m : nat) (s : conn) : nat := tx s + osubs m (subs s).
  Definition takes (e : event) : nat := match e with Drain n => n | _ => 0 end.
  Lemma osubs_ext m f g : (forall i, i < m -> queue (f i) = queue (g i)) -> osubs m f = osubs m g.
  Proof. induction m as [|m IH]; cbn; intro H; [reflexivity|]. rewrite H, IH by auto. reflexivity. Qed.
  Lemma osubs_set m f i x : i < m -> osubs m (fun j => if j =? i then x else f j) + list_sum (queue (f i)) = osubs m f + list_sum (queue x).
  Proof.
    induction m as [|m IH]; intro L; [lia|]. cbn [osubs]. destruct (Nat.eqb_spec m i) as [->|N].
    - rewrite (osubs_ext i (fun j => if j =? i then x else f j) f). { lia. }
      intros j J. destruct (Nat.eqb_spec j i); [lia|reflexivity].
    - specialize (IH ltac:(lia)). lia.
  Qed.
  Lemma do_reply_owed m i s : inside m s -> owed m (do_reply i s) = owed m s.
  Proof.
    intro I. unfold do_reply, owed. destruct (queue (subs s i)) as [|n q] eqn:Q.
    - cbn [tx subs set_sub]. f_equal. apply osubs_ext. intros j _. destruct (Nat.eqb_spec j i) as [->|]; [now rewrite Q|reflexivity].
    - assert (L : i < m). { destruct (Nat.lt_ge_cases i m) as [L|L]; [exact L|]. rewrite (I i L) in Q. discriminate. }
      assert (W : forall b, osubs m (fun j => if j =? i then {| queue := q; sched := b |} else subs s j) + n = osubs m (subs s)).
      { intro b. pose proof (osubs_set m (subs s) i {| queue := q; sched := b |} L) as W. rewrite Q in W. cbn [queue] in W. change (list_sum (n :: q)) with (n + list_sum q) in W. lia. }
      destruct q as [|n2 q2]; cbn [tx subs set_sub set_tx set_tasks negb]; [specialize (W false)|specialize (W true)]; lia.
  Qed.
  Lemma flush_owed m l s : inside m s -> owed m (flush limit l s) = owed m s.
  Proof.
    revert s. induction l as [|i l IH]; intros s I; cbn [flush]; [reflexivity|]. destruct (tx s <? limit); [|reflexivity].
    rewrite IH by (now apply do_reply_weight). now apply do_reply_owed.
  Qed.
  Lemma step_owed m s e s' : inside m s -> quiet e = true -> step limit lim s e = Some s' -> takes e + owed m s' = owed m s.
  Proof.
    intros I Q. destruct e as [i n|replies| |n|]; try discriminate Q; cbn [step takes].
    - destruct (tasks s) as [|t r] eqn:T; [discriminate|]. intros [= <-].
      destruct t as [i|i]; [destruct (reading s)|]; [exact (do_reply_owed m i (set_tasks r s) I)|reflexivity|exact (do_reply_owed m i (set_tasks r s) I)].
    - destruct ((0 <? n) && (n <=? tx s)) eqn:G; [|discriminate]. intros [= <-]. apply andb_true_iff in G as [G1 G2]. apply Nat.leb_le in G2.
      unfold owed. cbn [tx subs set_due set_tx]. lia.
    - destruct (due s) eqn:DU; [|discriminate]. intros [= <-]. pose proof (flush_owed m (backlog s) (set_due false s) I) as W. destruct (_ <? limit); exact W.
  Qed.
  Lemma run_owed m es s s' : inside m s -> forallb quiet es = true -> run limit lim s es = Some s' -> list_sum (map takes es) + owed m s' = owed m s.
  Proof.
    revert s. induction es as [|e es IH]; cbn [run forallb]; intros s I Q R; [injection R as <-; reflexivity|].
    apply andb_true_iff in Q as [Q1 Q2]. destruct (step limit lim s e) as [s1|] eqn:E; [|discriminate].
    pose proof (step_owed m s e s1 I Q1 E) as W. destruct (step_weight m s e s1 I Q1 E) as (I1 & _). specialize (IH s1 I1 Q2 R).
    cbn [map]. change (list_sum (takes e :: map takes es)) with (takes e + list_sum (map takes es)). lia.
  Qed.
  (** queues are in use for finitely many subscriptions *)
  Lemma inside_le m m' s : m <= m' -> inside m s -> inside m' s.
  Proof. intros L I i J. apply I. lia. Qed.
  Lemma post_inside m i n s : inside m s -> inside (max m (S i)) (post lim i n s).
  Proof.
    intros I j J. unfold post, maybe_reply. cbn [subs set_sub queue sched]. destruct (_ && _); cbn; destruct (Nat.eqb_spec j i); try lia; try apply I; lia.
  Qed.
  Lemma run_inside es : forall m s s', inside m s -> run limit lim s es = Some s' -> exists m', inside m' s'.
  Proof.
    induction es as [|e es IH]; cbn [run]; intros m s s' I R; [injection R as <-; eauto|]. destruct (step limit lim s e) as [s1|] eqn:E; [|discriminate].
    destruct (quiet e) eqn:Q.
    - destruct (step_weight m s e s1 I Q E) as (I1 & _). eapply IH; eauto.
    - destruct e as [i n|replies| | |]; try discriminate Q; cbn [step] in E.
      + injection E as <-. apply (IH (max m (S i)) (post lim i n s) s'); [apply post_inside; exact I|exact R].
      + destruct (reading s); [|discriminate]. injection E as <-. eapply (IH m); [|exact R]. destruct (limit <=? _); exact I.
  Qed.

  (** ** Replies to requests only *)
  Definition no_post (e : event) : bool := match e with Post _ _ => false | _ => true end.
  Definition idle (s : conn) : Prop := tasks s = [] /\ backlog s = [] /\ (reading s = true -> tx s < limit).
  Lemma idle_bound B s e s' : idle s -> no_post e = true -> (forall l, e = Recv l -> list_sum l <= B) -> tx s < limit + B -> step limit lim s e = Some s' ->
    idle s' /\ tx s' < limit + B.
  Proof.
    intros (T & K & R) NP SZ BD. destruct e as [i n|replies| |n|]; try discriminate NP; cbn [step].
    - destruct (reading s) eqn:RD; [|discriminate]. intros [= <-]. specialize (R eq_refl). specialize (SZ _ eq_refl).
      cbn [tx set_tx]. destruct (Nat.leb_spec limit (tx s + list_sum replies)) as [L|L]; unfold idle; cbn [tx reading tasks backlog set_tx set_reading]; (split; [|lia]);
        (split; [exact T|]); (split; [exact K|]); [discriminate|auto].
    - rewrite T. discriminate.
    - destruct ((0 <? n) && (n <=? tx s)) eqn:G; [|discriminate]. intros [= <-]. unfold idle. cbn [tx reading tasks backlog set_tx set_due].
      split; [|lia]. split; [exact T|]. split; [exact K|]. intro X. specialize (R X). lia.
    - destruct (due s) eqn:D; [|discriminate]. rewrite K. cbn [flush]. intros [= <-]. cbn [tx set_backlog set_due].
      destruct (Nat.ltb_spec (tx s) limit) as [L|L]; unfold idle; cbn [tx reading tasks backlog set_backlog set_due set_reading]; auto.
  Qed.
  Lemma idle_run B es : forall s s', idle s -> forallb no_post es = true -> (forall l, In (Recv l) es -> list_sum l <= B) -> tx s < limit + B -> run limit lim s es = Some s' -> tx s' < limit + B.
  Proof.
    induction es as [|e es IH]; cbn [run forallb]; intros s s' J NP SZ BD R; [congruence|]. apply andb_true_iff in NP as [N1 N2].
    destruct (step limit lim s e) as [s1|] eqn:E; [|discriminate].
    destruct (idle_bound B s e s1 J N1) as (J1 & B1); [intros l ->; apply SZ; now left|exact BD|exact E|].
    eapply IH; eauto. intros l X. apply SZ. now right.
  Qed.

  (** ** Held back *)
  Definition held (s : conn) : Prop := reading s = false /\ forall i, ~ In (TReply i) (tasks s).
  Definition local (e : event) : bool := match e with Post _ _ | Work => true | _ => false end.
  Lemma held_step s e s' : held s -> local e = true -> step limit lim s e = Some s' -> held s' /\ tx s' = tx s.
  Proof.
    intros (R & T) L. destruct e as [i n|replies| |n|]; try discriminate L; cbn [step].
    - intros [= <-]. unfold post, maybe_reply. destruct (_ && _); unfold held; cbn [reading tx tasks set_sub set_tasks]; (split; [|reflexivity]); (split; [exact R|]); intros j; [|apply T].
      intro X. apply in_app_or in X as [X|[X|[]]]; [exact (T j X)|discriminate].
    - destruct (tasks s) as [|t r] eqn:Q; [discriminate|]. intros [= <-]. rewrite R. destruct t as [i|i]; [|exfalso; apply (T i); now left].
      unfold held. cbn [reading tx tasks set_backlog set_tasks]. split; [|reflexivity]. split; [exact R|]. intros j X. apply (T j). now right.
  Qed.
  Lemma held_run es : forall s s', held s -> forallb local es = true -> run limit lim s es = Some s' -> reading s' = false /\ tx s' = tx s.
  Proof.
    induction es as [|e es IH]; cbn [run forallb]; intros s s' J NP R; [injection R as <-; split; [apply J|reflexivity]|]. apply andb_true_iff in NP as [N1 N2].
    destruct (step limit lim s e) as [s1|] eqn:E; [|discriminate]. destruct (held_step s e s1 J N1 E) as (J1 & T1). rewrite <- T1. eapply IH; eauto.
  Qed.

  (** ** Queues *)
  Definition short (s : conn) : Prop := forall i, length (queue (subs s i)) <= max 1 lim.
  Lemma do_reply_short i s : short s -> short (do_reply i s).
  Proof. clear LIM.
    intros H j. specialize (H j). unfold do_reply. destruct (queue (subs s i)) as [|n [|n2 q]] eqn:Q; cbn [subs set_sub set_tx set_tasks]; destruct (Nat.eqb_spec j i) as [->|]; auto; cbn [queue length]; try lia.
    rewrite Q in H. cbn [length] in H. lia.
  Qed.
  Lemma flush_short l s : short s -> short (flush limit l s).
  Proof. revert s. induction l as [|i l IH]; intros s H; cbn [flush]; [exact H|]. destruct (_ <? _); [apply IH, do_reply_short, H|exact H]. Qed.
  Lemma removelast_len (q : list nat) : length (removelast q) = length q - 1.
  Proof. clear LIM. induction q as [|x [|y q] IH]; [reflexivity..|]. cbn [removelast length] in *. rewrite IH. lia. Qed.
  Lemma short_step s e s' : short s -> step limit lim s e = Some s' -> short s'.
  Proof. clear LIM.
    intros H. destruct e as [i n|replies| |n|]; cbn [step].
    - intros [= <-]. intro j. specialize (H j). unfold post, maybe_reply. destruct (_ && _); cbn [subs set_sub set_tasks]; destruct (Nat.eqb_spec j i) as [->|]; auto;
        cbn [queue]; rewrite ?Nat.eqb_refl; cbn [queue]; (destruct (Nat.ltb_spec (length (queue (subs s i))) lim); rewrite app_length, ?removelast_len; cbn [length]; lia).
    - destruct (reading s); [|discriminate]. intros [= <-]. destruct (limit <=? _); exact H.
    - destruct (tasks s) as [|t r]; [discriminate|]. intros [= <-]. destruct t as [i|i]; [destruct (reading s)|]; [apply do_reply_short; exact H|exact H|apply do_reply_short; exact H].
    - destruct (_ && _); [|discriminate]. intros [= <-]. exact H.
    - destruct (due s); [|discriminate]. intros [= <-]. destruct (_ <? limit); apply (flush_short (backlog s) (set_due false s)); exact H.
  Qed.
  Lemma short_run es : forall s s', short s -> run limit lim s es = Some s' -> short s'.
  Proof.
    induction es as [|e es IH]; cbn [run]; intros s s' J R; [injection R as <-; exact J|]. destruct (step limit lim s e) as [s1|] eqn:E; [|discriminate].
    eapply IH; [eapply short_step; eauto|exact R].
  Qed.
End Conn.
Lemma run_app limit lim a b s : run limit lim s (a ++ b) = match run limit lim s a with Some s' => run limit lim s' b | None => None end.
Proof. revert s. induction a as [|e a IH]; cbn [app run]; intro s; [reflexivity|]. destruct (step limit lim s e); [apply IH|reflexivity]. Qed.
