(** Proofs on MPMCFIFO. *)
From Coq Require Import List Bool Arith Lia.
From Verif Require Import FifoModel.
Import ListNotations.

Fixpoint cnt (f : thread -> nat) (l : list thread) : nat := match l with [] => 0 | x :: r => f x + cnt f r end.
Lemma cnt_upd f : forall l t x y, nth_error l t = Some x -> cnt f (upd l t y) + f x = cnt f l + f y.
Proof. induction l as [|z l IH]; intros [|t] x y H; cbn in *; try discriminate; [injection H as ->; lia|]. specialize (IH t x y H). lia. Qed.
Lemma nth_upd {A} : forall (l : list A) t y u, nth_error (upd l t y) u = if (u =? t) && (t <? length l) then Some y else nth_error l u.
Proof. induction l as [|z l IH]; intros [|t] y [|u]; cbn; auto; [now rewrite andb_false_r|]. rewrite IH. reflexivity. Qed.
Lemma len_upd {A} : forall (l : list A) t y, length (upd l t y) = length l.
Proof. induction l as [|z l IH]; intros [|t] y; cbn; auto. Qed.
Lemma cnt_pos f l t x : nth_error l t = Some x -> f x <= cnt f l.
Proof. revert t. induction l as [|z l IH]; intros [|t] H; cbn in *; try discriminate; [injection H as ->; lia|]. specialize (IH t H). lia. Qed.
Lemma cnt_ex f l : 0 < cnt f l -> exists t x, nth_error l t = Some x /\ 0 < f x.
Proof.
  induction l as [|z l IH]; cbn; [lia|]. intro H. destruct (Nat.eq_dec (f z) 0) as [E|E].
  - destruct IH as (t & x & N & P); [lia|]. exists (S t), x. auto.
  - exists 0, z. split; [reflexivity|lia].
Qed.

Definition head_pop (x : thread) : nat := match calls x with Pop :: _ => 1 | _ => 0 end.
Definition head_push (x : thread) : nat := match calls x with Push _ :: _ => 1 | _ => 0 end.
Definition waitR (x : thread) : nat := match at_ x with Waiting => head_pop x | _ => 0 end.
Definition wokR (x : thread) : nat := match at_ x with Woken => head_pop x | _ => 0 end.
Definition waitW (x : thread) : nat := match at_ x with Waiting => head_push x | _ => 0 end.
Definition wokW (x : thread) : nat := match at_ x with Woken => head_push x | _ => 0 end.
Definition sigR (x : thread) : nat := match at_ x with Signals r _ => Nat.b2n r | _ => 0 end.
Definition sigW (x : thread) : nat := match at_ x with Signals _ w => Nat.b2n w | _ => 0 end.
Definition lost (x : thread) : nat := match at_ x, calls x with Waiting, [] | Woken, [] => 1 | Signals false false, _ => 1 | _, _ => 0 end.
Definition npops (x : thread) : nat := length (filter (fun c => match c with Pop => true | _ => false end) (calls x)).
Definition npush (x : thread) : nat := length (filter (fun c => match c with Pop => false | _ => true end) (calls x)).
Definition work (x : thread) : nat := 12 * length (calls x) + match at_ x with Ready => 3 | Waiting => 0 | Woken => 1 | Signals r w => 3 + 3 * Nat.b2n r + 3 * Nat.b2n w end.
Arguments head_pop !x /.
Arguments head_push !x /.
Arguments waitR !x /.
Arguments wokR !x /.
Arguments waitW !x /.
Arguments wokW !x /.
Arguments sigR !x /.
Arguments sigW !x /.
Arguments lost !x /.
Arguments npops !x /.
Arguments npush !x /.
Arguments work !x /.
Definition weight (s : st) : nat := cnt work (threads s) + 2 * Nat.b2n (flagW s) + 2 * Nat.b2n (flagR s).

Section Fifo.
  Variable limit : nat.
  Notation step := (step limit).
  Notation run := (run limit).
  Record inv (s : st) : Prop := {
    i_nr : nreaders s = cnt waitR (threads s) + cnt wokR (threads s);
    i_nw : nwriters s = cnt waitW (threads s) + cnt wokW (threads s);
    i_lost : cnt lost (threads s) = 0;
    i_lim : 0 < limit -> length (q s) <= limit;
    i_nolim : limit = 0 -> nwriters s = 0;
    i_fifo : map snd (ins s) = map snd (outs s) ++ q s;
    i_R : 0 < length (q s) -> 0 < nreaders s -> 0 < Nat.b2n (flagR s) + cnt sigR (threads s) + cnt wokR (threads s);
    i_W : length (q s) < limit -> 0 < nwriters s -> 0 < Nat.b2n (flagW s) + cnt sigW (threads s) + cnt wokW (threads s) }.

  Lemma inv_init ps : inv (init ps).
  Proof.
    assert (Z : forall f, (forall p, f {| calls := p; at_ := Ready |} = 0) -> cnt f (threads (init ps)) = 0).
    { intros f H. unfold init. cbn [threads]. induction ps as [|p ps IH]; cbn; auto. rewrite H. exact IH. }
    split; cbn [init q nwriters nreaders ins outs map app length]; try lia; try reflexivity; rewrite ?Z; try reflexivity.
  Qed.
  Ltac counts l t x y N :=
    pose proof (cnt_upd waitR l t x y N); pose proof (cnt_upd wokR l t x y N); pose proof (cnt_upd waitW l t x y N); pose proof (cnt_upd wokW l t x y N);
    pose proof (cnt_upd sigR l t x y N); pose proof (cnt_upd sigW l t x y N); pose proof (cnt_upd lost l t x y N); pose proof (cnt_upd work l t x y N);
    pose proof (cnt_upd npops l t x y N); pose proof (cnt_upd npush l t x y N).
  Ltac open := cbn [q nwriters nreaders flagW flagR threads ins outs place_of flags] in *.
  Ltac facts := cbn [waitR wokR waitW wokW sigR sigW lost work head_pop head_push npops npush at_ calls filter length Nat.b2n Nat.mul Nat.add] in *.

  (** What one step does to the numbers. *)
  Lemma push_step s t v r (wk : bool) x : inv s -> nth_error (threads s) t = Some x -> calls x = Push v :: r -> at_ x = (if wk then Woken else Ready) ->
    inv (enter_push limit s t v r wk) /\ weight (enter_push limit s t v r wk) < weight s /\
    cnt npops (threads (enter_push limit s t v r wk)) = cnt npops (threads s) /\ length (outs (enter_push limit s t v r wk)) = length (outs s) /\
    length (ins (enter_push limit s t v r wk)) + cnt npush (threads (enter_push limit s t v r wk)) = length (ins s) + cnt npush (threads s).
  Proof.
    intros [NR NW LO LI NL FI IR IW] N C A. destruct x as [cs a]. cbn in C, A. subst cs a. unfold enter_push, full. 
    assert (WK : wk = true -> 0 < nwriters s). { intros ->. pose proof (cnt_pos wokW _ _ _ N) as Q. cbn in Q. lia. }
    destruct (positive limit && (limit <=? length (q s))) eqn:F.
    - apply andb_true_iff in F. destruct F as (F1 & F2). unfold positive in F1. apply negb_true_iff, Nat.eqb_neq in F1. apply Nat.leb_le in F2.
      set (y := {| calls := Push v :: r; at_ := Waiting |}). counts (threads s) t {| calls := Push v :: r; at_ := if wk then Woken else Ready |} y N. subst y.
      unfold weight. open. destruct wk; facts; (split; [split; open; auto; try lia|]; lia).
    - assert (NF : limit = 0 \/ length (q s) < limit).
      { apply andb_false_iff in F. unfold positive in F. destruct F as [F|F]; [left; apply negb_false_iff, Nat.eqb_eq in F; auto|right; apply Nat.leb_gt in F; auto]. }
      clear F. cbv zeta. set (nw := if wk then nwriters s - 1 else nwriters s).
      destruct ((length (q s) =? 0) && positive (nreaders s)) eqn:E1; destruct (positive nw && (length (q s ++ [v]) <? limit)) eqn:E2; unfold signals; cbn [orb];
      (assert (E1' : length (q s) = 0 /\ 0 < nreaders s \/ 0 < length (q s) \/ nreaders s = 0)
         by (unfold positive in E1; destruct (Nat.eqb_spec (length (q s)) 0); destruct (Nat.eqb_spec (nreaders s) 0); cbn in E1; try discriminate; lia));
      (assert (E2' : 0 < nw /\ length (q s) + 1 < limit \/ nw = 0 \/ limit <= length (q s) + 1)
         by (unfold positive in E2; rewrite app_length in E2; cbn [length] in E2; destruct (Nat.eqb_spec nw 0); destruct (Nat.ltb_spec (length (q s) + 1) limit); cbn in E2; try discriminate; lia));
      match goal with |- context[upd (threads s) t ?y] => counts (threads s) t {| calls := Push v :: r; at_ := if wk then Woken else Ready |} y N end;
      unfold weight; open; subst nw; destruct wk; facts;
      (split; [split; open; rewrite ?app_length; cbn [length]; auto; try lia|rewrite ?app_length; cbn [length]; lia]); try (rewrite map_app, FI; cbn [map snd]; now rewrite <- app_assoc).
      all: unfold positive in E1, E2; rewrite ?app_length in E2; cbn [length] in E2; repeat match type of E1 with context[?a =? ?b] => destruct (Nat.eqb_spec a b) end; repeat match type of E2 with context[?a =? ?b] => destruct (Nat.eqb_spec a b) end;
        repeat match type of E2 with context[?a <? ?b] => destruct (Nat.ltb_spec a b) end; cbn in E1, E2; try discriminate; try lia.
  Qed.
  Lemma pop_step s t r (wk : bool) x : inv s -> nth_error (threads s) t = Some x -> calls x = Pop :: r -> at_ x = (if wk then Woken else Ready) ->
    inv (enter_pop s t r wk) /\ weight (enter_pop s t r wk) < weight s /\
    cnt npush (threads (enter_pop s t r wk)) = cnt npush (threads s) /\ length (ins (enter_pop s t r wk)) = length (ins s) /\
    length (outs (enter_pop s t r wk)) + cnt npops (threads (enter_pop s t r wk)) = length (outs s) + cnt npops (threads s).
  Proof.
    intros [NR NW LO LI NL FI IR IW] N C A. destruct x as [cs a]. cbn in C, A. subst cs a. unfold enter_pop.
    assert (WK : wk = true -> 0 < nreaders s). { intros ->. pose proof (cnt_pos wokR _ _ _ N) as Q. cbn in Q. lia. }
    destruct (q s) as [|v qs] eqn:EQ.
    - set (y := {| calls := Pop :: r; at_ := Waiting |}). counts (threads s) t {| calls := Pop :: r; at_ := if wk then Woken else Ready |} y N. subst y.
      unfold weight. open. destruct wk; facts; (split; [split; open; cbn [length]; auto; try lia|]; lia).
    - cbv zeta. set (nr := if wk then nreaders s - 1 else nreaders s). cbn [length] in *.
      destruct (positive (nwriters s)) eqn:E1; destruct (positive (length qs) && positive nr) eqn:E2; unfold signals; cbn [orb]; unfold positive in E1, E2;
      destruct (Nat.eqb_spec (nwriters s) 0) as [X1|X1]; cbn [negb] in E1; try discriminate E1;
      destruct (Nat.eqb_spec (length qs) 0) as [X2|X2]; destruct (Nat.eqb_spec nr 0) as [X3|X3]; cbn [negb andb] in E2; try discriminate E2;
      match goal with |- context[upd (threads s) t ?y] => counts (threads s) t {| calls := Pop :: r; at_ := if wk then Woken else Ready |} y N end;
      unfold weight; open; subst nr; destruct wk; facts;
      (split; [split; open; rewrite ?app_length; cbn [length]; auto; try lia|rewrite ?app_length; cbn [length]; lia]); try (rewrite map_app, FI; cbn [map snd]; now rewrite <- app_assoc).
  Qed.
  Lemma inv_step s t s' : inv s -> step s t = Some s' -> inv s' /\ weight s' < weight s /\
    length (ins s') + cnt npush (threads s') = length (ins s) + cnt npush (threads s) /\ length (outs s') + cnt npops (threads s') = length (outs s) + cnt npops (threads s).
  Proof.
    intros I S. unfold FifoModel.step in S. destruct (nth_error (threads s) t) as [[cs a]|] eqn:N; [|discriminate]. cbn [at_ calls] in S.
    destruct a as [| | |r0 w0].
    - destruct cs as [|[v|] r]; [discriminate| |]; injection S as <-.
      + destruct (push_step s t v r false _ I N eq_refl eq_refl) as (A & B & C & D & E). rewrite C, D. auto.
      + destruct (pop_step s t r false _ I N eq_refl eq_refl) as (A & B & C & D & E). rewrite C, D. auto.
    - destruct I as [NR NW LO LI NL FI IR IW]. destruct cs as [|[v|] r]; [discriminate| |].
      + destruct (flagW s) eqn:FW; [|discriminate]. injection S as <-. unfold weight. open. counts (threads s) t {| calls := Push v :: r; at_ := Waiting |} {| calls := Push v :: r; at_ := Woken |} N. rewrite FW in *. facts.
        split; [split; open; cbn [Nat.b2n]; auto; try lia|]; lia.
      + destruct (flagR s) eqn:FR; [|discriminate]. injection S as <-. unfold weight. open. counts (threads s) t {| calls := Pop :: r; at_ := Waiting |} {| calls := Pop :: r; at_ := Woken |} N. rewrite FR in *. facts.
        split; [split; open; cbn [Nat.b2n]; auto; try lia|]; lia.
    - destruct cs as [|[v|] r]; [discriminate| |]; injection S as <-.
      + destruct (push_step s t v r true _ I N eq_refl eq_refl) as (A & B & C & D & E). rewrite C, D. auto.
      + destruct (pop_step s t r true _ I N eq_refl eq_refl) as (A & B & C & D & E). rewrite C, D. auto.
    - destruct I as [NR NW LO LI NL FI IR IW]. pose proof (cnt_pos lost _ _ _ N) as L0.
      assert (SS : Some s' = (if r0 then Some (place_of (flags s (flagW s) true) t {| calls := cs; at_ := signals false w0 |}) else Some (place_of (flags s true (flagR s)) t {| calls := cs; at_ := Ready |})))
        by (destruct r0; destruct cs; symmetry; exact S).
      clear S. destruct r0.
      + injection SS as ->. unfold weight, signals, place_of, flags. open. destruct w0; cbn [orb];
        match goal with |- context[upd _ t ?y] => match type of N with _ = Some ?x => counts (threads s) t x y N end end; open; facts;
        (split; [split; open; cbn [Nat.b2n]; auto; try lia|]; destruct (flagR s); cbn [Nat.b2n] in *; lia).
      + destruct w0; [|cbn [lost at_ calls] in L0; lia]. injection SS as ->. unfold weight, place_of, flags. open.
        match goal with |- context[upd _ t ?y] => match type of N with _ = Some ?x => counts (threads s) t x y N end end; open; facts;
        (split; [split; open; cbn [Nat.b2n]; auto; try lia|]; destruct (flagW s); cbn [Nat.b2n] in *; lia).
  Qed.
  Lemma inv_run es : forall s s', inv s -> run s es = Some s' -> inv s' /\ weight s' + length es <= weight s /\
    length (ins s') + cnt npush (threads s') = length (ins s) + cnt npush (threads s) /\ length (outs s') + cnt npops (threads s') = length (outs s) + cnt npops (threads s).
  Proof.
    induction es as [|e es IH]; intros s s' I R; cbn [FifoModel.run] in R; [injection R as <-; cbn [length]; split; [exact I|lia]|].
    destruct (step s e) as [s1|] eqn:E; [|discriminate]. destruct (inv_step _ _ _ I E) as (I1 & W1 & A1 & B1). destruct (IH _ _ I1 R) as (I2 & W2 & A2 & B2). cbn [length]. split; [exact I2|lia].
  Qed.

  (** Who cannot go on *)
  Lemma idle s t x : inv s -> step s t = None -> nth_error (threads s) t = Some x ->
    (at_ x = Ready /\ calls x = []) \/ (exists v r, at_ x = Waiting /\ calls x = Push v :: r /\ flagW s = false) \/ (exists r, at_ x = Waiting /\ calls x = Pop :: r /\ flagR s = false).
  Proof.
    intros I S N. unfold FifoModel.step in S. rewrite N in S. pose proof (cnt_pos lost _ _ _ N) as L0. rewrite (i_lost s I) in L0. destruct x as [cs a]. cbn [at_ calls] in *.
    destruct a as [| | |[] w].
    - destruct cs as [|[v|] r]; [auto|discriminate|discriminate].
    - destruct cs as [|[v|] r]; [cbn in L0; lia| |].
      + destruct (flagW s); [discriminate|]. right. left. eauto.
      + destruct (flagR s); [discriminate|]. right. right. eauto.
    - destruct cs as [|[v|] r]; [cbn in L0; lia|discriminate|discriminate].
    - destruct cs; discriminate.
    - destruct cs; discriminate.
  Qed.
  Lemma none s f : inv s -> (forall t, step s t = None) -> (forall x, f x <> 0 -> at_ x <> Ready /\ at_ x <> Waiting) -> cnt f (threads s) = 0.
  Proof.
    intros I S F. destruct (Nat.eq_dec (cnt f (threads s)) 0) as [E|E]; [exact E|exfalso]. destruct (cnt_ex f (threads s)) as (t & x & N & P); [lia|].
    destruct (F x) as (A & B); [lia|]. destruct (idle s t x I (S t) N) as [(Q & _)|[(v & r & Q & _)|(r & Q & _)]]; contradiction.
  Qed.
  Lemma stuck_reader s t x r : inv s -> (forall t, step s t = None) -> nth_error (threads s) t = Some x -> at_ x = Waiting -> calls x = Pop :: r -> q s = [].
  Proof.
    intros I S N A C. destruct (idle s t x I (S t) N) as [(Q & _)|[(v & r' & _ & Q & _)|(r' & _ & _ & FR)]]; try congruence.
    assert (Z1 : cnt sigR (threads s) = 0) by (apply none; auto; intros y H; unfold sigR in H; destruct (at_ y); split; congruence).
    assert (Z2 : cnt wokR (threads s) = 0) by (apply none; auto; intros y H; unfold wokR in H; destruct (at_ y); split; congruence).
    pose proof (cnt_pos waitR _ _ _ N) as P. unfold waitR at 1 in P. rewrite A in P. unfold head_pop in P. rewrite C in P.
    destruct (q s) as [|v l] eqn:Q; [reflexivity|exfalso]. pose proof (i_R s I) as IR. rewrite Q, FR, Z1, Z2 in IR. cbn [length Nat.b2n] in IR. pose proof (i_nr s I). lia.
  Qed.
  Lemma stuck_writer s t x v r : inv s -> (forall t, step s t = None) -> nth_error (threads s) t = Some x -> at_ x = Waiting -> calls x = Push v :: r -> 0 < limit /\ length (q s) = limit.
  Proof.
    intros I S N A C. destruct (idle s t x I (S t) N) as [(Q & _)|[(v' & r' & _ & _ & FW)|(r' & _ & Q & _)]]; try congruence.
    assert (Z1 : cnt sigW (threads s) = 0) by (apply none; auto; intros y H; unfold sigW in H; destruct (at_ y); split; congruence).
    assert (Z2 : cnt wokW (threads s) = 0) by (apply none; auto; intros y H; unfold wokW in H; destruct (at_ y); split; congruence).
    pose proof (cnt_pos waitW _ _ _ N) as P. unfold waitW at 1 in P. rewrite A in P. unfold head_push in P. rewrite C in P.
    pose proof (i_W s I) as IW. rewrite FW, Z1, Z2 in IW. cbn [Nat.b2n] in IW. pose proof (i_nw s I). pose proof (i_nolim s I). pose proof (i_lim s I).
    assert (0 < limit) by lia. split; [assumption|]. lia.
  Qed.
End Fifo.
