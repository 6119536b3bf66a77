(** Proofs on starting and stopping of servers. *)
From Coq Require Import List Bool Arith Lia.
From Verif Require Import LifeModel.
Import ListNotations.

Lemma nth_upd {A} : forall (l : list A) t y u, nth_error (upd l t y) u = if (u =? t) && (t <? length l) then Some y else nth_error l u.
Proof. induction l as [|z l IH]; intros [|t] y [|u]; cbn; auto; [now rewrite andb_false_r|]. rewrite IH. reflexivity. Qed.
Lemma upd_same {A} (l : list A) t x y : nth_error l t = Some x -> nth_error (upd l t y) t = Some y.
Proof. intro H. rewrite nth_upd, Nat.eqb_refl. assert (t < length l) by (apply nth_error_Some; congruence). now rewrite (proj2 (Nat.ltb_lt _ _)). Qed.
Lemma upd_other {A} (l : list A) t y u : u <> t -> nth_error (upd l t y) u = nth_error l u.
Proof. intro H. rewrite nth_upd. now rewrite (proj2 (Nat.eqb_neq _ _)). Qed.
Lemma upd_repeat (a b : bool) k m : upd (repeat a k ++ repeat b (S m)) k a = repeat a (S k) ++ repeat b m.
Proof. induction k as [|k IH]; cbn; [reflexivity|]. f_equal. exact IH. Qed.

Section Life.
  Variable L : nat.
  Notation step := (step).
  Definition whole (b : list part) : Prop := b = start_parts L \/ b = stop_parts L \/ b = [Arm; Await; Disarm] \/ b = [Await; Disarm] \/ b = [Disarm] \/ b = [Tell].
  Definition mid_start (k : nat) (b : list part) : Prop := k <= L /\ b = map Listen (seq k (L - k)) ++ [Go].
  Definition mid_stop (k : nat) (b : list part) : Prop := k <= L /\ b = map Ignore (seq k (L - k)) ++ [Halt].
  Definition all_whole (l : list (list (list part))) : Prop := forall u x, nth_error l u = Some x -> Forall whole x.
  Definition one_mid (P : list part -> Prop) (t : nat) (l : list (list (list part))) : Prop :=
    (exists b bs, nth_error l t = Some (b :: bs) /\ P b /\ Forall whole bs) /\ forall u x, u <> t -> nth_error l u = Some x -> Forall whole x.
  Definition inv (s : st) : Prop :=
    match ph s with
    | Stopped => all_whole (threads s) /\ tcp s = false /\ udp s = repeat false L /\ timer s = false /\ conns s = []
    | Running => all_whole (threads s) /\ tcp s = true /\ udp s = repeat true L /\ timer s = true
    | Starting => exists t k, one_mid (mid_start k) t (threads s) /\ tcp s = true /\ udp s = repeat true k ++ repeat false (L - k) /\ timer s = false
    | Stopping => exists t k, one_mid (mid_stop k) t (threads s) /\ tcp s = true /\ udp s = repeat false k ++ repeat true (L - k) /\ timer s = false
    end.
  Lemma whole_parts c : Forall whole (parts L c).
  Proof. unfold whole. destruct c; cbn; repeat (constructor; auto 8). Qed.
  Lemma whole_flat p : Forall whole (flat_map (parts L) p).
  Proof. induction p as [|c p IH]; cbn [flat_map]; [constructor|]. apply Forall_app. split; [apply whole_parts|exact IH]. Qed.
  Lemma inv_init ps : inv (init L ps).
  Proof.
    unfold inv, init. cbn. split; [|auto]. intros u x H. rewrite nth_error_map in H. destruct (nth_error ps u) as [p|]; [|discriminate]. injection H as <-. apply whole_flat.
  Qed.
  Lemma all_upd l t bs : all_whole l -> Forall whole bs -> all_whole (upd l t bs).
  Proof. intros A B u x H. rewrite nth_upd in H. destruct ((u =? t) && (t <? length l)); [injection H as <-; exact B|eapply A, H]. Qed.
  Lemma mid_upd P l t u bs : one_mid P t l -> u <> t -> Forall whole bs -> one_mid P t (upd l u bs).
  Proof.
    intros ((b & bs0 & N & Q & F) & O) NE B. split.
    - exists b, bs0. rewrite upd_other by auto. auto.
    - intros w x W H. rewrite nth_upd in H. destruct ((w =? u) && (u <? length l)); [injection H as <-; exact B|eapply O; eauto].
  Qed.
  Lemma mid_make (P : list part -> Prop) l t b bs x : all_whole l -> nth_error l t = Some x -> P b -> Forall whole bs -> one_mid P t (upd l t (b :: bs)).
  Proof. intros A N Q F. split; [exists b, bs; split; [eapply upd_same, N|auto]|]. intros u y NE H. rewrite upd_other in H by auto. eapply A, H. Qed.
  Lemma mid_next (P Q : list part -> Prop) l t b bs : one_mid P t l -> (exists b0, nth_error l t = Some (b0 :: bs)) -> Q b -> one_mid Q t (upd l t (b :: bs)).
  Proof.
    intros ((b1 & bs1 & N & _ & F) & O) (b0 & N0) H. rewrite N in N0. injection N0 as _ ->. split; [exists b, bs; split; [eapply upd_same, N|auto]|]. intros u y NE K. rewrite upd_other in K by auto. eapply O; eauto.
  Qed.
  Lemma mid_end (P : list part -> Prop) l t bs : one_mid P t l -> (exists b0, nth_error l t = Some (b0 :: bs)) -> all_whole (upd l t bs).
  Proof.
    intros ((b1 & bs1 & N & _ & F) & O) (b0 & N0). rewrite N in N0. injection N0 as _ ->. intros u x H. rewrite nth_upd in H. destruct (Nat.eqb_spec u t) as [->|NE]; cbn [andb] in H.
    - assert (t < length l) as LT by (apply nth_error_Some; congruence). rewrite (proj2 (Nat.ltb_lt _ _) LT) in H. injection H as <-. exact F.
    - eapply O; eauto.
  Qed.
  (** Two ways of a thread: its block is new, or in the middle *)
  Lemma start_mid : mid_start 0 (map Listen (seq 0 L) ++ [Go]).
  Proof. split; [lia|]. now rewrite Nat.sub_0_r. Qed.
  Lemma stop_mid : mid_stop 0 (map Ignore (seq 0 L) ++ [Halt]).
  Proof. split; [lia|]. now rewrite Nat.sub_0_r. Qed.
  Lemma mid_start_cases k p r : mid_start k (p :: r) -> (k < L /\ p = Listen k /\ mid_start (S k) r) \/ (k = L /\ p = Go /\ r = []).
  Proof.
    intros (K & E). destruct (Nat.eq_dec k L) as [->|NE].
    - right. rewrite Nat.sub_diag in E. cbn in E. injection E as -> ->. auto.
    - left. assert (L - k = S (L - S k)) as Q by lia. rewrite Q in E. cbn [seq map app] in E. injection E as -> ->. repeat split; lia || reflexivity.
  Qed.
  Lemma mid_stop_cases k p r : mid_stop k (p :: r) -> (k < L /\ p = Ignore k /\ mid_stop (S k) r) \/ (k = L /\ p = Halt /\ r = []).
  Proof.
    intros (K & E). destruct (Nat.eq_dec k L) as [->|NE].
    - right. rewrite Nat.sub_diag in E. cbn in E. injection E as -> ->. auto.
    - left. assert (L - k = S (L - S k)) as Q by lia. rewrite Q in E. cbn [seq map app] in E. injection E as -> ->. repeat split; lia || reflexivity.
  Qed.
  Lemma mid_start_ne k b : mid_start k b -> exists p r, b = p :: r.
  Proof. intros (_ & ->). destruct (map Listen (seq k (L - k))) as [|p r]; cbn; eauto. Qed.
  Lemma mid_stop_ne k b : mid_stop k b -> exists p r, b = p :: r.
  Proof. intros (_ & ->). destruct (map Ignore (seq k (L - k))) as [|p r]; cbn; eauto. Qed.
  Lemma next_mid_start k b bs : mid_start k b -> next_blocks b bs = b :: bs.
  Proof. intro H. destruct (mid_start_ne _ _ H) as (p & r & ->). reflexivity. Qed.
  Lemma next_mid_stop k b bs : mid_stop k b -> next_blocks b bs = b :: bs.
  Proof. intro H. destruct (mid_stop_ne _ _ H) as (p & r & ->). reflexivity. Qed.
  Lemma whole_cases p r : whole (p :: r) -> (p = Begin /\ mid_start 0 r) \/ (p = End /\ mid_stop 0 r) \/ (p = Arm /\ r = [Await; Disarm]) \/ (p = Await /\ r = [Disarm]) \/ (p = Disarm /\ r = []) \/ (p = Tell /\ r = []).
  Proof.
    intros [H|[H|[H|[H|[H|H]]]]]; injection H as -> ->; auto 8.
    - left. split; [reflexivity|apply start_mid].
    - right. left. split; [reflexivity|apply stop_mid].
  Qed.
  Lemma inv_step s e s' : inv s -> step s e = Some s' -> inv s'.
  Proof.
    intros I S. destruct e as [t| |i|c|c|]; cbn [LifeModel.step] in S.
    2: { destruct (timer s); [|discriminate]. injection S as <-. exact I. }
    2: { destruct (nth i (udp s) false); injection S as <-; exact I. }
    2: { destruct (tcp s) eqn:T; injection S as <-; [|exact I]. unfold inv in *. cbn [outside ph threads tcp udp timer conns]. destruct (ph s); auto. destruct I as (_ & I & _). congruence. }
    2: { injection S as <-. unfold inv in *. cbn [outside ph threads tcp udp timer conns]. destruct (ph s); auto. destruct I as (A & B & C & D & ->). auto 6. }
    2: { destruct (sig s) as [[|]|]; injection S as <-; exact I. }
    destruct (nth_error (threads s) t) as [[|[|p r] bs]|] eqn:N; try discriminate.
    destruct (do_part s p r) as [[s1 r1]|] eqn:D; [|discriminate]. injection S as <-.
    (* whole block of t *)
    assert (W : Forall whole ((p :: r) :: bs) ->
      (ph s = Stopped /\ p = Begin /\ mid_start 0 r) \/ (ph s = Running /\ p = End /\ mid_stop 0 r) \/
      (Forall whole (next_blocks r1 (rest s p bs)) /\ ph s1 = ph s /\ tcp s1 = tcp s /\ udp s1 = udp s /\ timer s1 = timer s /\ conns s1 = conns s /\ threads s1 = threads s)).
    { intro F. inversion F as [|? ? F1 F2]; subst. destruct (whole_cases _ _ F1) as [(-> & M)|[(-> & M)|[(-> & ->)|[(-> & ->)|[(-> & ->)|(-> & ->)]]]]]; cbn [do_part] in D.
      - destruct (ph s) eqn:P; [left; auto|right; right..]; injection D as <- <-; cbn [next_blocks]; auto 8.
      - destruct (ph s) eqn:P; [right; right|right; right|right; left; auto|right; right]; injection D as <- <-; cbn [next_blocks]; auto 8.
      - right. right. cbn [rest]. destruct (sig s); injection D as <- <-; cbn [next_blocks ph tcp udp timer conns threads].
        + split; [|auto 8]. destruct bs; [constructor|]. now inversion F2.
        + split; [|auto 8]. constructor; [unfold whole; auto 8|exact F2].
      - destruct (done s); [|discriminate]. injection D as <- <-. right. right. cbn [rest next_blocks ph tcp udp timer conns threads]. split; [|auto 8]. constructor; [unfold whole; auto 8|exact F2].
      - right. right. cbn [rest]. destruct (sig s) as [[|]|]; injection D as <- <-; cbn; auto 8.
      - injection D as <- <-. right. right. cbn. auto 8. }
    unfold inv in I. destruct (ph s) eqn:P.
    - destruct I as (A & I1 & I2 & I3 & I4). pose proof (A _ _ N) as F. destruct (W F) as [(_ & -> & M)|[(Q & _)|(F' & Q1 & Q2 & Q3 & Q4 & Q5 & Q6)]]; [|discriminate|].
      + cbn [do_part] in D. rewrite P in D. injection D as <- <-. cbn [rest]. rewrite (next_mid_start 0) by exact M. unfold inv. cbn [with_thread ph threads tcp udp timer conns].
        exists t, 0. split; [eapply mid_make; eauto; inversion F; assumption|]. split; [reflexivity|]. split; [cbn [repeat app]; now rewrite Nat.sub_0_r|exact I3].
      + unfold inv. cbn [with_thread ph threads tcp udp timer conns]. rewrite Q1, Q2, Q3, Q4, Q5, Q6. split; [now apply all_upd|auto].
    - destruct I as (t0 & k & M & I1 & I2 & I3). destruct (Nat.eq_dec t t0) as [->|NE].
      + pose proof M as ((b & bs0 & N0 & MK & F0) & O). rewrite N in N0. injection N0 as <- <-. destruct (mid_start_cases _ _ _ MK) as [(KL & -> & MK')|(-> & -> & ->)]; cbn [do_part] in D; injection D as <- <-; unfold inv; cbn [rest with_thread ph threads tcp udp timer conns].
        * rewrite P. rewrite (next_mid_start (S k)) by exact MK'. exists t0, (S k). split; [eapply mid_next; eauto|]. split; [exact I1|]. split; [|exact I3]. rewrite I2. assert (L - k = S (L - S k)) as Q by lia. rewrite Q. apply upd_repeat.
        * cbn [next_blocks]. split; [eapply mid_end; eauto|]. split; [exact I1|]. split; [|reflexivity]. rewrite I2, Nat.sub_diag. cbn. apply app_nil_r.
      + pose proof (proj2 M _ _ NE N) as F. destruct (W F) as [(Q & _)|[(Q & _)|(F' & Q1 & Q2 & Q3 & Q4 & Q5 & Q6)]]; try discriminate.
        unfold inv. cbn [with_thread ph threads tcp udp timer conns]. rewrite Q1, Q2, Q3, Q4, Q6. exists t0, k. split; [now apply mid_upd|auto].
    - destruct I as (A & I1 & I2 & I3). pose proof (A _ _ N) as F. destruct (W F) as [(Q & _)|[(_ & -> & M)|(F' & Q1 & Q2 & Q3 & Q4 & Q5 & Q6)]]; [discriminate| |].
      + cbn [do_part] in D. rewrite P in D. injection D as <- <-. cbn [rest]. rewrite (next_mid_stop 0) by exact M. unfold inv. cbn [with_thread ph threads tcp udp timer conns].
        exists t, 0. split; [eapply mid_make; eauto; inversion F; assumption|]. split; [exact I1|]. split; [cbn [repeat app]; now rewrite Nat.sub_0_r|reflexivity].
      + unfold inv. cbn [with_thread ph threads tcp udp timer conns]. rewrite Q1, Q2, Q3, Q4, Q6. split; [now apply all_upd|auto].
    - destruct I as (t0 & k & M & I1 & I2 & I3). destruct (Nat.eq_dec t t0) as [->|NE].
      + pose proof M as ((b & bs0 & N0 & MK & F0) & O). rewrite N in N0. injection N0 as <- <-. destruct (mid_stop_cases _ _ _ MK) as [(KL & -> & MK')|(-> & -> & ->)]; cbn [do_part] in D; injection D as <- <-; unfold inv; cbn [rest with_thread ph threads tcp udp timer conns].
        * rewrite P. rewrite (next_mid_stop (S k)) by exact MK'. exists t0, (S k). split; [eapply mid_next; eauto|]. split; [exact I1|]. split; [|exact I3]. rewrite I2. assert (L - k = S (L - S k)) as Q by lia. rewrite Q. apply upd_repeat.
        * cbn [next_blocks]. split; [eapply mid_end; eauto|]. split; [reflexivity|]. split; [rewrite I2, Nat.sub_diag; cbn; apply app_nil_r|]. split; [exact I3|reflexivity].
      + pose proof (proj2 M _ _ NE N) as F. destruct (W F) as [(Q & _)|[(Q & _)|(F' & Q1 & Q2 & Q3 & Q4 & Q5 & Q6)]]; try discriminate.
        unfold inv. cbn [with_thread ph threads tcp udp timer conns]. rewrite Q1, Q2, Q3, Q4, Q6. exists t0, k. split; [now apply mid_upd|auto].
  Qed.
  Lemma inv_run es : forall s s', inv s -> run s es = Some s' -> inv s'.
  Proof. induction es as [|e es IH]; intros s s' I R; cbn [LifeModel.run] in R; [now injection R as <-|]. destruct (step s e) as [s1|] eqn:E; [|discriminate]. eapply IH; [|exact R]. eapply inv_step; eauto. Qed.
End Life.
