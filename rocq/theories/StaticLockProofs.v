(** Proofs on the lock of a StaticSource. *)
From Coq Require Import List Bool Arith Lia.
From Verif Require Import StaticLockModel.
Import ListNotations.

(** ** Lists *)
Definition b2n (b : bool) : nat := if b then 1 else 0.
Fixpoint sum {A} (f : A -> nat) (l : list A) : nat := match l with [] => 0 | x :: r => f x + sum f r end.
Lemma sum_set {A} (f : A -> nat) l t x y : nth_error l t = Some x -> sum f (set_at t y l) + f x = sum f l + f y.
Proof. revert t. induction l as [|a l IH]; intros [|t] E; cbn in *; try discriminate; [injection E as ->; lia|]. specialize (IH t E). lia. Qed.
Lemma set_nth {A} l t (y : A) k : nth_error (set_at t y l) k = if k =? t then (if t <? length l then Some y else None) else nth_error l k.
Proof.
  revert t k. induction l as [|a l IH]; intros t k; [destruct t; cbn; destruct k; cbn; try reflexivity; now destruct (k =? t)|].
  destruct t, k; cbn; try reflexivity. rewrite IH. destruct (k =? t) eqn:E; [|reflexivity]. change (S t <? S (length l)) with (t <? length l). reflexivity.
Qed.
Lemma set_here {A} l t (x y : A) : nth_error l t = Some x -> nth_error (set_at t y l) t = Some y.
Proof. intro E. rewrite set_nth, Nat.eqb_refl. assert (t < length l) by (apply nth_error_Some; congruence). now rewrite (proj2 (Nat.ltb_lt _ _) H). Qed.
Lemma set_other {A} l t (y : A) k : k <> t -> nth_error (set_at t y l) k = nth_error l k.
Proof. intro N. rewrite set_nth. now rewrite (proj2 (Nat.eqb_neq _ _) N). Qed.
Lemma Forall_set {A} (P : A -> Prop) l t y : Forall P l -> P y -> Forall P (set_at t y l).
Proof. intro F. revert t. induction F as [|a l H F IH]; intros [|t] Y; cbn; constructor; auto. Qed.
Lemma Forall_at {A} (P : A -> Prop) l t y : Forall P l -> nth_error l t = Some y -> P y.
Proof. intros F E. rewrite Forall_forall in F. exact (F y (nth_error_In _ _ E)). Qed.
Lemma sum_app {A} (f : A -> nat) a b : sum f (a ++ b) = sum f a + sum f b.
Proof. induction a as [|x a IH]; cbn; lia. Qed.
Lemma sum_zero {A} (f : A -> nat) l : sum f l = 0 -> forall x, In x l -> f x = 0.
Proof. induction l as [|a l IH]; cbn; intros E x; [easy|]. intros [-> | H]; [lia|apply IH; [lia|exact H]]. Qed.
Lemma sum_pos {A} (f : A -> nat) l : sum f l <> 0 -> exists t x, nth_error l t = Some x /\ f x <> 0.
Proof.
  induction l as [|a l IH]; cbn; [easy|]. intro H. destruct (Nat.eq_dec (f a) 0) as [E|E]; [|exists 0, a; auto].
  destruct IH as (t & x & H1 & H2); [lia|]. exists (S t), x. auto.
Qed.

(** ** Threads *)
Fixpoint rd (l : list action) : bool := match l with EndRead :: _ => true | Call _ :: r => rd r | _ => false end.
Definition wr (l : list action) : bool := match l with EndWrite :: _ => true | _ => false end.
(** [l] fits to a thread which holds nothing, reads (1) or writes (2) *)
Fixpoint ok (ph : nat) (l : list action) : bool :=
  match ph, l with
  | 0, [] => true
  | 0, Read :: r => ok 1 r
  | 0, Write :: r => ok 2 r
  | 0, Call _ :: r => ok 0 r
  | 1, EndRead :: r => ok 0 r
  | 1, Call _ :: r => ok 1 r
  | 2, EndWrite :: r => ok 0 r
  | _, _ => false
  end.
Definition ph (l : list action) : nat := if rd l then 1 else if wr l then 2 else 0.
Lemma ok_ph l : forall p, ok p l = true -> p = ph l.
Proof.
  unfold ph. induction l as [|a l IH]; intros p H; [destruct p as [|[|[|p]]]; now try discriminate|].
  destruct p as [|[|[|p]]]; destruct a; cbn in *; try discriminate; try reflexivity.
  - specialize (IH 0 H). destruct (rd l); [discriminate|reflexivity].
  - specialize (IH 1 H). destruct (rd l); [reflexivity|]. destruct (wr l); discriminate.
Qed.
Lemma ok_actions u l : ok 0 l = true -> ok 0 (actions u ++ l) = true.
Proof.
  intro H. assert (C : forall p js, p < 2 -> forall l, ok p l = true -> ok p (map Call js ++ l) = true).
  { intros p js P. induction js as [|j js IH]; intros l0 H0; cbn [map app]; [exact H0|]. destruct p as [|[|p]]; cbn; [now apply IH..|lia]. }
  destruct u as [|js|js|]; cbn [actions app ok]; try exact H; [apply C; [lia|exact H]|]. rewrite <- app_assoc. apply C; [lia|exact H].
Qed.
Lemma ok_uses us : ok 0 (flat_map actions us) = true.
Proof. induction us as [|u us IH]; [reflexivity|]. now apply ok_actions. Qed.

(** ** Weight: each step takes away from it *)
Definition wt (a : action) : nat := match a with Call j => 2 * length j + 3 | _ => 1 end.
Definition tw (x : bool * list action) : nat := match x with (true, _ :: r) => 1 + sum wt r | (_, l) => sum wt l end.
Definition jw (x : option nat * job) : nat := 2 * length (snd x) + 1.
Definition weight (s : st) : nat := sum tw (todo s) + sum jw (jobs s) + match inside s with Some _ => 1 | None => 0 end.

(** ** The invariant *)
Definition waiters (l : list (option nat * job)) : list nat := flat_map (fun x => match fst x with Some t => [t] | None => [] end) l.
Definition is_q (q : quick) (o : option quick) : nat := match o, q with Some QRead, QRead => 1 | Some QWrite, QWrite => 1 | _, _ => 0 end.
Record inv (s : st) : Prop := {
  i_ok : Forall (fun x => ok (ph (snd x)) (snd x) = true) (todo s);
  i_rd : readers s = sum (fun x => b2n (rd (snd x))) (todo s) + is_q QRead (inside s);
  i_wr : b2n (writing s) = sum (fun x => b2n (wr (snd x))) (todo s) + is_q QWrite (inside s);
  i_ex : writing s = true -> readers s = 0;
  i_nd : NoDup (waiters (jobs s));
  i_in : forall t, In t (waiters (jobs s)) <-> exists l, nth_error (todo s) t = Some (true, l);
  i_call : Forall (fun x => fst x = true -> exists j r, snd x = Call j :: r) (todo s) }.
Lemma waiters_none l : waiters (map (fun j => (None, j)) l) = [].
Proof. induction l; [reflexivity|exact IHl]. Qed.
Lemma inv_init us rq : inv (init us rq).
Proof.
  assert (Z : forall f, (forall l, ok 0 l = true -> f (false, l) = 0) -> sum f (map (fun u => (false, flat_map actions u)) us) = 0).
  { intros f H. induction us as [|u us IH]; cbn; [reflexivity|]. now rewrite (H _ (ok_uses u)), IH. }
  split; cbn [init todo readers writing jobs inside is_q].
  - apply Forall_forall. intros x H. apply in_map_iff in H. destruct H as (u & <- & _). cbn [snd]. rewrite <- (ok_ph _ 0 (ok_uses u)). apply ok_uses.
  - rewrite Z; [reflexivity|]. intros l H. apply ok_ph in H. unfold ph in H. cbn [snd]. destruct (rd l); [discriminate|reflexivity].
  - rewrite Z; [reflexivity|]. intros l H. apply ok_ph in H. unfold ph in H. cbn [snd]. destruct (rd l), (wr l); try discriminate; reflexivity.
  - discriminate.
  - rewrite waiters_none. constructor.
  - intro t. rewrite waiters_none. split; [easy|]. intros (l & E). apply nth_error_In, in_map_iff in E. destruct E as (u & E & _). discriminate.
  - apply Forall_forall. intros x H. apply in_map_iff in H. destruct H as (u & <- & _). discriminate.
Qed.
Lemma sent_iff l t b a r b' r' : nth_error l t = Some (b, a :: r) -> b = false -> b' = false ->
  forall k, (exists x : list action, nth_error l k = Some (true, x)) <-> exists x, nth_error (set_at t (b', r') l) k = Some (true, x).
Proof.
  intros E -> -> k. destruct (Nat.eq_dec k t) as [->|N].
  - rewrite (set_here l t _ _ E), E. split; intros (x & H); discriminate.
  - now rewrite set_other.
Qed.
Ltac counts E := match goal with |- context [set_at ?t ?y ?l] =>
  pose proof (sum_set (fun x : bool * list action => b2n (rd (snd x))) l t _ y E) as C1;
  pose proof (sum_set (fun x : bool * list action => b2n (wr (snd x))) l t _ y E) as C2; cbn [snd rd wr b2n] in C1, C2 end.
Lemma sum_ge {A} (f : A -> nat) l t x : nth_error l t = Some x -> f x <= sum f l.
Proof. revert t. induction l as [|a l IH]; intros [|t] E; cbn in *; try discriminate; [injection E as ->; lia|]. specialize (IH t E). lia. Qed.
Lemma waiters_app a b : waiters (a ++ b) = waiters a ++ waiters b.
Proof. apply flat_map_app. Qed.

Lemma nodup_snoc {A} (l : list A) x : NoDup l -> ~ In x l -> NoDup (l ++ [x]).
Proof. intros N H. apply (proj2 (NoDup_Add (Add_app x l []))). rewrite app_nil_r. auto. Qed.
Lemma rd_wr l : rd l = true -> wr l = false.
Proof. destruct l as [|[]]; now try discriminate. Qed.
Lemma ok_rw p l : ok p l = true -> b2n (rd l) = b2n (p =? 1) /\ b2n (wr l) = b2n (p =? 2) /\ ok (ph l) l = true.
Proof.
  intro H. pose proof (rd_wr l) as X. rewrite <- (ok_ph l p H). split; [|split; [|exact H]]; apply ok_ph in H; unfold ph in H; destruct (rd l), (wr l); subst p; try reflexivity; now discriminate X.
Qed.
(** a thread which does an action other than Call *)
Lemma thread_inv s t a r rs w : inv s -> nth_error (todo s) t = Some (false, a :: r) -> ok (ph r) r = true ->
  rs + b2n (rd (a :: r)) = readers s + b2n (rd r) -> b2n w + b2n (wr (a :: r)) = b2n (writing s) + b2n (wr r) -> (w = true -> rs = 0) -> wt a = 1 ->
  let s' := {| readers := rs; writing := w; todo := set_at t (false, r) (todo s); jobs := jobs s; inside := inside s |} in
  inv s' /\ weight s' < weight s.
Proof.
  intros [OK RD WR EX ND IN CA] E O R W X A s'.
  pose proof (sum_set (fun x => b2n (rd (snd x))) _ t _ (false, r) E) as C1. pose proof (sum_set (fun x => b2n (wr (snd x))) _ t _ (false, r) E) as C2.
  pose proof (sum_set tw _ t _ (false, r) E) as C3. cbn [snd] in C1, C2. cbn [tw sum] in C3. split.
  - split; cbn [s' todo readers writing jobs inside].
    + apply Forall_set; assumption.
    + lia.
    + lia.
    + exact X.
    + exact ND.
    + intro k. rewrite IN. now apply sent_iff with (b := false) (a := a) (r := r).
    + apply Forall_set; [exact CA|discriminate].
  - unfold weight. cbn [s' todo readers writing jobs inside]. rewrite A in C3. lia.
Qed.
(** the worker, while no thread changes *)
Lemma work_inv s rs w js i : inv s -> waiters js = waiters (jobs s) ->
  rs + is_q QRead (inside s) = readers s + is_q QRead i -> b2n w + is_q QWrite (inside s) = b2n (writing s) + is_q QWrite i -> (w = true -> rs = 0) ->
  inv {| readers := rs; writing := w; todo := todo s; jobs := js; inside := i |}.
Proof. intros [OK RD WR EX ND IN CA] J R W X. split; cbn [todo readers writing jobs inside]; auto; try lia; now rewrite J. Qed.

Lemma step_inv s e s' : inv s -> step s e = Some s' -> inv s' /\ weight s' < weight s.
Proof.
  intros I S. pose proof I as [OK RD WR EX ND IN CA]. destruct e as [t|]; cbn [step] in S.
  - destruct (nth_error (todo s) t) as [(b & [|a r])|] eqn:E; try discriminate.
    pose proof (Forall_at _ _ _ _ OK E) as O. cbn [snd] in O. pose proof (Forall_at _ _ _ _ CA E) as B. cbn [fst snd] in B.
    pose proof (sum_ge (fun x => b2n (rd (snd x))) _ _ _ E) as G1. pose proof (sum_ge (fun x => b2n (wr (snd x))) _ _ _ E) as G2. cbn [snd] in G1, G2.
    assert (BF : (forall j, a <> Call j) -> b = false).
    { intro N. destruct b; [|reflexivity]. destruct (B eq_refl) as (j & r' & X). injection X as -> _. now elim (N j). }
    destruct a as [| | | |j].
    + rewrite (BF ltac:(discriminate)) in *. destruct (writing s) eqn:W; [discriminate|]. injection S as <-.
      cbn in O. destruct (ok_rw 1 r O) as (H1 & H2 & H3). cbn [Nat.eqb b2n] in H1, H2.
      eapply (thread_inv s t Read r (S (readers s)) false I E H3); cbn [rd wr b2n]; try rewrite W; cbn [b2n]; try lia; try discriminate; reflexivity.
    + rewrite (BF ltac:(discriminate)) in *. injection S as <-. cbn in O. destruct (ok_rw 0 r O) as (H1 & H2 & H3). cbn [Nat.eqb b2n] in H1, H2. cbn [rd b2n] in G1.
      eapply (thread_inv s t EndRead r (pred (readers s)) (writing s) I E H3); cbn [rd wr b2n]; try lia; [|reflexivity]. intro W. specialize (EX W). lia.
    + rewrite (BF ltac:(discriminate)) in *. destruct (writing s) eqn:W; [discriminate|]. destruct (readers s) as [|n] eqn:R; [|discriminate]. cbn [orb negb Nat.eqb] in S. injection S as <-.
      cbn in O. destruct (ok_rw 2 r O) as (H1 & H2 & H3). cbn [Nat.eqb b2n] in H1, H2.
      eapply (thread_inv s t Write r 0 true I E H3); cbn [rd wr b2n]; try rewrite W; cbn [b2n]; try lia; reflexivity.
    + rewrite (BF ltac:(discriminate)) in *. injection S as <-. cbn in O. destruct (ok_rw 0 r O) as (H1 & H2 & H3). cbn [Nat.eqb b2n] in H1, H2. cbn [wr b2n] in G2.
      assert (W : b2n (writing s) = 1) by (destruct (writing s); cbn [b2n] in *; lia).
      eapply (thread_inv s t EndWrite r (readers s) false I E H3); cbn [rd wr b2n]; try lia; try discriminate; reflexivity.
    + destruct b; [discriminate|]. injection S as <-.
      pose proof (sum_set (fun x => b2n (rd (snd x))) _ t _ (true, Call j :: r) E) as C1. pose proof (sum_set (fun x => b2n (wr (snd x))) _ t _ (true, Call j :: r) E) as C2.
      pose proof (sum_set tw _ t _ (true, Call j :: r) E) as C3. cbn [snd] in C1, C2. cbn [tw sum wt] in C3. split.
      * split; cbn [todo readers writing jobs inside].
        -- apply Forall_set; assumption.
        -- lia.
        -- lia.
        -- exact EX.
        -- rewrite waiters_app. cbn [waiters flat_map fst app]. apply nodup_snoc; [exact ND|]. intro H. apply IN in H. destruct H as (l & H). rewrite E in H. discriminate.
        -- intro k. rewrite waiters_app, in_app_iff, IN. cbn [waiters flat_map fst app In]. destruct (Nat.eq_dec k t) as [->|N].
           ++ rewrite (set_here _ _ _ _ E). split; [eauto|]. intros _. right. now left.
           ++ rewrite set_other by exact N. split; [intros [H|[H|[]]]; [exact H|congruence]|auto].
        -- apply Forall_set; [exact CA|]. intros _. exists j, r. reflexivity.
      * unfold weight. cbn [todo readers writing jobs inside].
        rewrite sum_app. cbn [sum]. unfold jw at 2. cbn [snd]. lia.
  - destruct (inside s) as [[]|] eqn:Q.
    + injection S as <-. split.
      * apply work_inv with (s := s); auto; rewrite ?Q; cbn [is_q] in *; try lia. intro W. specialize (EX W). lia.
      * unfold weight. cbn [todo jobs inside]. rewrite Q. lia.
    + injection S as <-. cbn [is_q] in WR. assert (W : b2n (writing s) = 1) by (destruct (writing s); cbn [b2n] in *; lia). split.
      * apply work_inv with (s := s); auto; rewrite ?Q; cbn [is_q b2n] in *; try lia.
      * unfold weight. cbn [todo jobs inside]. rewrite Q. lia.
    + destruct (jobs s) as [|(o & [|q r]) l] eqn:J; [discriminate| |].
      * destruct o as [t|]; injection S as <-.
        -- assert (T : exists j r, nth_error (todo s) t = Some (true, Call j :: r)).
           { destruct (proj1 (IN t)) as (x & E); [now left|]. destruct (Forall_at _ _ _ _ CA E eq_refl) as (j & r & X). cbn [snd] in X. subst x. eauto. }
           destruct T as (j & r & E). assert (NE : nth t (todo s) (false, []) = (true, Call j :: r)) by (apply nth_error_nth; exact E). rewrite NE. cbn [snd tl].
           pose proof (Forall_at _ _ _ _ OK E) as O. cbn [snd] in O.
           pose proof (sum_set (fun x => b2n (rd (snd x))) _ t _ (false, r) E) as C1. pose proof (sum_set (fun x => b2n (wr (snd x))) _ t _ (false, r) E) as C2.
           pose proof (sum_set tw _ t _ (false, r) E) as C3. cbn [snd] in C1, C2. cbn [tw sum] in C3.
           assert (OR : rd (Call j :: r) = rd r /\ b2n (wr r) = 0 /\ ok (ph r) r = true).
           { split; [reflexivity|]. remember (ph (Call j :: r)) as p. destruct p as [|[|[|p]]]; cbn in O; [| |discriminate..].
             - destruct (ok_rw 0 r O) as (_ & H2 & H3). auto.
             - destruct (ok_rw 1 r O) as (_ & H2 & H3). auto. }
           destruct OR as (O1 & O2 & O3). cbn [wr b2n] in C2. rewrite O1 in C1. cbn [waiters flat_map fst app] in ND, IN. inversion ND as [|? ? N1 N2]; subst. split.
           ++ split; cbn [todo readers writing jobs inside].
              ** apply Forall_set; assumption.
              ** lia.
              ** lia.
              ** exact EX.
              ** exact N2.
              ** intro k. destruct (Nat.eq_dec k t) as [->|N].
                 --- rewrite (set_here _ _ _ _ E). split; [now intro|intros (x & H); discriminate].
                 --- rewrite set_other by exact N. rewrite <- IN. split; [now right|intros [H|H]; [congruence|exact H]].
              ** apply Forall_set; [exact CA|discriminate].
           ++ unfold weight. cbn [todo jobs inside]. rewrite J, Q. cbn [sum]. unfold jw at 2. cbn [snd length]. lia.
        -- split; [apply work_inv with (s := s); auto; rewrite ?Q, ?J; auto|]. unfold weight. cbn [todo jobs inside]. rewrite J, Q. cbn [sum]. unfold jw at 2. cbn [snd length]. lia.
      * assert (WT : sum jw ((o, r) :: l) + 1 < sum jw ((o, q :: r) :: l)) by (cbn [sum]; unfold jw at 1 3; cbn [snd length]; lia).
        destruct q.
        -- assert (SE : writing s = false /\ s' = {| readers := Datatypes.S (readers s); writing := false; todo := todo s; jobs := (o, r) :: l; inside := Some QRead |}).
           { destruct o; destruct (writing s); try discriminate; injection S as <-; auto. }
           destruct SE as (W & ->). split.
           ++ apply work_inv with (s := s); auto; rewrite ?Q, ?J, ?W; cbn [is_q b2n]; try reflexivity; try lia.
           ++ unfold weight. cbn [todo jobs inside]. rewrite J, Q. cbn [sum] in *. unfold jw in *. cbn [snd length] in *. lia.
        -- assert (SE : writing s = false /\ readers s = 0 /\ s' = {| readers := readers s; writing := true; todo := todo s; jobs := (o, r) :: l; inside := Some QWrite |}).
           { destruct o; destruct (writing s); try discriminate; destruct (readers s); try discriminate; cbn [orb negb Nat.eqb] in S; injection S as <-; auto. }
           destruct SE as (W & R & ->). split.
           ++ apply work_inv with (s := s); auto; rewrite ?Q, ?J, ?W, ?R; cbn [is_q b2n]; try reflexivity; lia.
           ++ unfold weight. cbn [todo jobs inside]. rewrite J, Q. cbn [sum] in *. unfold jw in *. cbn [snd length] in *. lia.
Qed.

(** ** Progress *)
(** [tame]: no callback takes the lock for writing; [brief]: nobody waits for the worker while reading *)
Definition tame_action (a : action) : Prop := match a with Call j => ~ In QWrite j | _ => True end.
Definition tame (s : st) : Prop := Forall (fun x => Forall tame_action (snd x)) (todo s) /\ Forall (fun x => ~ In QWrite (snd x)) (jobs s).
Fixpoint short (l : list action) : Prop := match l with [] => True | Call _ :: r => rd r = false /\ short r | _ :: r => short r end.
Definition brief (s : st) : Prop := Forall (fun x => short (snd x)) (todo s).
Lemma short_tl a r : short (a :: r) -> short r.
Proof. destruct a; cbn; tauto. Qed.
Lemma step_brief s e s' : brief s -> step s e = Some s' -> brief s'.
Proof.
  unfold brief. intros B S. destruct e as [t|]; cbn [step] in S.
  - destruct (nth_error (todo s) t) as [(b & [|a r])|] eqn:E; try discriminate. pose proof (Forall_at _ _ _ _ B E) as X. cbn [snd] in X. pose proof (short_tl a r X) as Y.
    destruct a; repeat match type of S with (if ?c then _ else _) = _ => destruct c; try discriminate end; injection S as <-; cbn [todo]; now apply Forall_set.
  - destruct (inside s) as [[]|]; [injection S as <-; exact B..|]. destruct (jobs s) as [|(o & [|q r]) l]; [discriminate| |].
    + destruct o as [t|]; injection S as <-; cbn [todo]; [|exact B]. apply Forall_set; [exact B|]. cbn [snd].
      destruct (nth_error (todo s) t) as [(b & x)|] eqn:E; [|rewrite nth_overflow by (now apply nth_error_None); exact I]. rewrite (nth_error_nth _ _ _ E). cbn [snd].
      pose proof (Forall_at _ _ _ _ B E) as X. cbn [snd] in X. destruct x; [exact I|exact (short_tl _ _ X)].
    + destruct o, q; repeat match type of S with (if ?c then _ else _) = _ => destruct c; try discriminate end; injection S as <-; exact B.
Qed.
Lemma step_tame s e s' : tame s -> step s e = Some s' -> tame s'.
Proof.
  unfold tame. intros (B & J) S. destruct e as [t|]; cbn [step] in S.
  - destruct (nth_error (todo s) t) as [(b & [|a r])|] eqn:E; try discriminate. pose proof (Forall_at _ _ _ _ B E) as X. cbn [snd] in X. inversion X as [|? ? X1 X2]; subst.
    destruct a; repeat match type of S with (if ?c then _ else _) = _ => destruct c; try discriminate end; injection S as <-; cbn [todo jobs]; (split; [now apply Forall_set|]); try exact J.
    apply Forall_app. split; [exact J|]. constructor; [exact X1|constructor].
  - destruct (inside s) as [[]|]; [injection S as <-; split; assumption..|]. destruct (jobs s) as [|(o & [|q r]) l]; [discriminate| |]; inversion J as [|? ? J1 J2]; subst.
    + destruct o as [t|]; injection S as <-; cbn [todo jobs]; [|split; assumption]. split; [|exact J2]. apply Forall_set; [exact B|]. cbn [snd].
      destruct (nth_error (todo s) t) as [(b & x)|] eqn:E; [|rewrite nth_overflow by (now apply nth_error_None); constructor]. rewrite (nth_error_nth _ _ _ E). cbn [snd].
      pose proof (Forall_at _ _ _ _ B E) as X. cbn [snd] in X. destruct x; [constructor|]. now inversion X.
    + assert (J' : Forall (fun x : option nat * job => ~ In QWrite (snd x)) ((o, r) :: l)) by (constructor; [intro H; apply J1; now right|exact J2]).
      destruct o, q; repeat match type of S with (if ?c then _ else _) = _ => destruct c; try discriminate end; injection S as <-; split; assumption.
Qed.
Definition over (s : st) : Prop := (forall t x, nth_error (todo s) t = Some x -> snd x = []) /\ jobs s = [] /\ inside s = None.
Lemma some_step (s : st) e : step s e <> None -> exists e' s', step s e' = Some s'.
Proof. intro H. destruct (step s e) as [s'|] eqn:E; [eauto|congruence]. Qed.
Lemma progress s : inv s -> tame s \/ brief s -> over s \/ exists e s', step s e = Some s'.
Proof.
  intros [OK RD WR EX ND IN CA] TB. destruct (inside s) as [q|] eqn:Q.
  { right. apply (some_step s Work). cbn [step]. rewrite Q. destruct q; discriminate. }
  destruct (writing s) eqn:W.
  { right. cbn [b2n is_q] in WR. destruct (sum_pos (fun x => b2n (wr (snd x))) (todo s)) as (t & (b & l) & E & H); [lia|]. cbn [snd] in H.
    destruct l as [|[] r]; try (now elim H). apply (some_step s (Thread t)). cbn [step]. rewrite E. discriminate. }
  (* a reader which does not wait goes on *)
  assert (RP : readers s <> 0 -> (jobs s = [] \/ brief s) -> exists e s', step s e = Some s').
  { intros R B. cbn [is_q] in RD. destruct (sum_pos (fun x => b2n (rd (snd x))) (todo s)) as (t & (b & l) & E & H); [lia|]. cbn [snd] in H.
    destruct l as [|[] r]; try (now elim H); apply (some_step s (Thread t)); cbn [step]; rewrite E; [discriminate|]. destruct b; [|discriminate]. exfalso. destruct B as [B|B].
    - assert (X : In t (waiters (jobs s))) by (apply IN; eauto). now rewrite B in X.
    - pose proof (Forall_at _ _ _ _ B E) as X. cbn [snd short] in X. cbn [rd] in H. destruct X as (X & _). rewrite X in H. now elim H. }
  destruct (jobs s) as [|(o & [|q r]) l] eqn:J.
  - (* no job: any thread *)
    destruct (Nat.eq_dec (readers s) 0) as [R|R]; [|right; apply RP; auto].
    assert (D : (forall t x, nth_error (todo s) t = Some x -> snd x = []) \/ exists t b a r, nth_error (todo s) t = Some (b, a :: r)).
    { destruct (Forall_dec (fun x : bool * list action => snd x = [])) with (l := todo s) as [F|F].
      - intros (b & [|a r]); [now left|now right].
      - left. intros t x E. exact (Forall_at _ _ _ _ F E).
      - right. apply neg_Forall_Exists_neg in F; [|intros (b & [|a r]); [now left|now right]]. apply Exists_exists in F. destruct F as ((b & [|a r]) & I & N); [now elim N|].
        apply In_nth_error in I. destruct I as (t & E). eauto. }
    destruct D as [D|(t & b & a & r & E)]; [left; split; [exact D|auto]|]. right. apply (some_step s (Thread t)). cbn [step]. rewrite E, W, R. destruct a; try discriminate.
    destruct b; [|discriminate]. assert (X : In t (waiters [])) by (apply IN; eauto). easy.
  - right. apply (some_step s Work). cbn [step]. rewrite Q, J. destruct o; discriminate.
  - destruct q.
    + right. apply (some_step s Work). cbn [step]. rewrite Q, J, W. destruct o; discriminate.
    + destruct TB as [(_ & T)|B].
      * exfalso. rewrite J in T. inversion T as [|? ? T1 _]. apply T1. now left.
      * destruct (Nat.eq_dec (readers s) 0) as [R|R]; [|right; apply RP; auto].
        right. apply (some_step s Work). cbn [step]. rewrite Q, J, W, R. destruct o; discriminate.
Qed.
Lemma run_inv es : forall s s', inv s -> run s es = Some s' -> inv s' /\ length es + weight s' <= weight s /\ (tame s -> tame s') /\ (brief s -> brief s').
Proof.
  induction es as [|e es IH]; intros s s' I R; cbn [run] in R; [injection R as <-; cbn; auto|]. destruct (step s e) as [s1|] eqn:S; [|discriminate].
  destruct (step_inv s e s1 I S) as (I1 & L). destruct (IH s1 s' I1 R) as (I' & L' & T & B). split; [exact I'|]. split; [cbn [length]; lia|].
  split; [intro X; apply T; eapply step_tame; eauto|intro X; apply B; eapply step_brief; eauto].
Qed.
