(** Lemmas about marks and iteration. *)
From Coq Require Import ZArith List Bool Lia ZifyBool ZifyNat Relation_Operators Sorting.Sorted.
From Verif Require Import Base BaseProofs WireModel TypeModel TypeSpec TypeProofs TypeNameProofs ValueModel ValueSpec LayoutProofs
  MarkModel MarkSpec.
Import ListNotations.
Local Open Scope Z_scope.

Lemma marked_at_iff cells k : marked_at cells k = true <-> marked cells k.
Proof.
  unfold marked_at, marked. destruct (nth_error cells k) as [[v s]|].
  - split; [intros ->; eauto|intros (s' & H); now inversion H].
  - split; [discriminate|now intros (s' & H)].
Qed.
Lemma storage_lay m nodes cells : storage m nodes cells -> lay nodes.
Proof. intros ((_ & N & A) & -> & _). apply lay_flatten. now apply plist_NoDup. Qed.

Lemma inside_lt l k i : lay l -> is_inside l k i -> (k < i)%nat.
Proof. intros L H. destruct (inside_range l k i L H) as (d & _ & R). lia. Qed.
Lemma inside_bound l k i : lay l -> is_inside l k i -> (i < length l)%nat.
Proof. intros L H. destruct (inside_range l k i L H) as (d & E & R). pose proof (lay_range l k d L E). lia. Qed.
Lemma node_at (l : list fdesc) i : (i < length l)%nat -> exists d, nth_error l i = Some d.
Proof. intro H. destruct (nth_error l i) eqn:E; [eauto|]. apply nth_error_None in E. lia. Qed.

Lemma climb_ok l : lay l -> forall fuel i, (i <= fuel)%nat -> (i < length l)%nat ->
  exists ps, climb fuel l i = DOK ps /\ forall k, In k ps <-> is_inside l k i.
Proof.
  intro L. induction fuel as [|f IH]; intros i F B.
  - assert (i = 0)%nat by lia. subst i. exists []. split; [reflexivity|]. intro k. split; [easy|]. intro H. apply inside_lt in H; [lia|exact L].
  - destruct i as [|i].
    + exists []. split; [reflexivity|]. intro k. split; [easy|]. intro H. apply inside_lt in H; [lia|exact L].
    + cbn [climb]. destruct (node_at l (S i) B) as (d & E). rewrite E.
      destruct (lay_parent l (S i) d L E ltac:(lia)) as (p & M & P & Q).
      destruct (member_range l p (S i) L M) as (dp & d' & A1 & A2 & A3 & _).
      destruct (Nat.ltb_spec (S i) (f_parent d)) as [BAD|_]; [lia|]. cbv zeta. replace (S i - f_parent d)%nat with p by lia.
      destruct (IH p) as (ps & -> & PS); [lia|lia|]. exists (p :: ps). split; [reflexivity|]. intro k. cbn [In]. rewrite PS. split.
      * intros [<-|H]; [now apply t_step|]. eapply t_trans; [exact H|now apply t_step].
      * intro H. destruct (inside_range l k (S i) L H) as (dk & K1 & K2). pose proof (Q k dk K1 K2).
        destruct (Nat.eq_dec p k) as [->|N]; [now left|]. right. apply (inside_iff l k p dk L K1). lia.
Qed.

Lemma range_ok l i d : lay l -> nth_error l i = Some d -> forall k, In k (range_of l i) ->
  k = i \/ is_inside l i k.
Proof.
  intros L E k. unfold range_of. rewrite E. destruct (Nat.ltb_spec 1 (f_size d)); [|easy]. intro H0. apply in_seq in H0.
  destruct (Nat.eq_dec k i); [now left|]. right. apply (inside_iff l i k d L E). lia.
Qed.
Lemma range_all l i d : lay l -> nth_error l i = Some d -> forall k, is_inside l i k -> In k (range_of l i).
Proof.
  intros L E k H. apply (inside_iff l i k d L E) in H. unfold range_of. rewrite E.
  destruct (Nat.ltb_spec 1 (f_size d)); [|lia]. apply in_seq. lia.
Qed.

Lemma is_marked_ok l cells i p c : lay l -> (i < length l)%nat ->
  exists r, is_marked l cells i p c = DOK r /\
    (r = true <-> marked cells i \/ (p = true /\ exists k, is_inside l k i /\ marked cells k)
                  \/ (c = true /\ exists k, is_inside l i k /\ marked cells k)).
Proof.
  intros L B. destruct (node_at l i B) as (d & E). unfold is_marked.
  destruct (marked_at cells i) eqn:O.
  - exists true. split; [reflexivity|]. apply marked_at_iff in O. tauto.
  - assert (NO : ~ marked cells i) by (rewrite <- marked_at_iff; congruence).
    destruct c; cbn [andb].
    + destruct (existsb (marked_at cells) (range_of l i)) eqn:X.
      * exists true. split; [reflexivity|]. split; [|auto]. intros _. right. right. split; [reflexivity|].
        apply existsb_exists in X as (k & I & M). apply marked_at_iff in M. destruct (range_ok l i d L E k I) as [->|H]; [contradiction|]. eauto.
      * assert (NC : ~ exists k, is_inside l i k /\ marked cells k).
        { intros (k & H & M). apply (range_all l i d L E) in H. apply marked_at_iff in M.
          assert (T : existsb (marked_at cells) (range_of l i) = true) by (apply existsb_exists; eauto). congruence. }
        destruct p.
        -- destruct (climb_ok l L i i (le_n i) B) as (ps & -> & PS). eexists. split; [reflexivity|]. rewrite existsb_exists. split.
           ++ intros (k & I & M). right. left. split; [reflexivity|]. exists k. rewrite <- PS, <- marked_at_iff. auto.
           ++ intros [H|[(_ & k & I & M)|(_ & H)]]; try tauto. exists k. rewrite PS, marked_at_iff. auto.
        -- exists false. split; [reflexivity|]. split; [discriminate|]. intros [H|[(H & _)|(_ & H)]]; try tauto; discriminate.
    + destruct p.
      * destruct (climb_ok l L i i (le_n i) B) as (ps & -> & PS). eexists. split; [reflexivity|]. rewrite existsb_exists. split.
        -- intros (k & I & M). right. left. split; [reflexivity|]. exists k. rewrite <- PS, <- marked_at_iff. auto.
        -- intros [H|[(_ & k & I & M)|(H & _)]]; try tauto; try discriminate. exists k. rewrite PS, marked_at_iff. auto.
      * exists false. split; [reflexivity|]. split; [discriminate|]. intros [H|[(H & _)|(H & _)]]; try tauto; discriminate.
Qed.

(** ** setting marks *)
Lemma cell_set_length {A} i (v : A) l : length (cell_set i v l) = length l.
Proof. revert i. induction l as [|x l IH]; intros [|i]; cbn; auto. Qed.
Lemma cell_set_nth {A} i (v : A) l k : nth_error (cell_set i v l) k =
  if Nat.eqb k i then (if (i <? length l)%nat then Some v else None) else nth_error l k.
Proof.
  revert i k. induction l as [|x l IH]; intros [|i] [|k]; cbn; try reflexivity.
  - now destruct (k =? i)%nat.
  - now rewrite IH.
Qed.
Lemma set_mark_length b cells i : length (set_mark b cells i) = length cells.
Proof. unfold set_mark. destruct (nth_error cells i) as [[v s]|]; [apply cell_set_length|reflexivity]. Qed.
Lemma set_mark_nth b cells i k : nth_error (set_mark b cells i) k =
  match nth_error cells k with
  | Some (v, s) => Some ((if Nat.eqb k i then b else v), s)
  | None => None
  end.
Proof.
  unfold set_mark. destruct (nth_error cells i) as [[v s]|] eqn:E.
  - rewrite cell_set_nth. destruct (Nat.eqb_spec k i) as [->|N].
    + rewrite E. assert (i < length cells)%nat by (apply nth_error_Some; congruence). now destruct (Nat.ltb_spec i (length cells)); [|lia].
    + now destruct (nth_error cells k) as [[v' s']|].
  - destruct (nth_error cells k) as [[v' s']|] eqn:K; [|reflexivity]. destruct (Nat.eqb_spec k i) as [->|N]; [congruence|reflexivity].
Qed.
Lemma set_marks_length b l : forall cells, length (set_marks b l cells) = length cells.
Proof. induction l as [|i l IH]; intro cells; cbn; [reflexivity|]. fold (set_marks b l (set_mark b cells i)). now rewrite IH, set_mark_length. Qed.
Lemma set_marks_nth b l : forall cells k, nth_error (set_marks b l cells) k =
  match nth_error cells k with
  | Some (v, s) => Some ((if existsb (Nat.eqb k) l then b else v), s)
  | None => None
  end.
Proof.
  induction l as [|i l IH]; intros cells k; cbn [set_marks fold_left existsb].
  - now destruct (nth_error cells k) as [[v s]|].
  - fold (set_marks b l (set_mark b cells i)). rewrite IH, set_mark_nth. destruct (nth_error cells k) as [[v s]|]; [|reflexivity].
    destruct (Nat.eqb k i); cbn [orb]; [|reflexivity]. now destruct (existsb _ l).
Qed.
Lemma existsb_eqb k l : existsb (Nat.eqb k) l = true <-> In k l.
Proof. rewrite existsb_exists. split; [intros (x & I & E); apply Nat.eqb_eq in E; now subst|intro H; exists k; now rewrite Nat.eqb_refl]. Qed.

Lemma unmark_ok l cells i p c : lay l -> (i < length l)%nat ->
  exists cells', unmark l cells i p c = DOK cells' /\
    marks_changed (fun k => k = i \/ (p = true /\ is_inside l k i) \/ (c = true /\ is_inside l i k)) false cells cells'.
Proof.
  intros L B. destruct (node_at l i B) as (d & E). unfold unmark. cbv zeta.
  set (c2 := if c then set_marks false (range_of l i) (set_mark false cells i) else set_mark false cells i).
  assert (C2 : marks_changed (fun k => k = i \/ (c = true /\ is_inside l i k)) false cells c2).
  { split; [subst c2; destruct c; rewrite ?set_marks_length, set_mark_length; reflexivity|].
    intros k v s H. subst c2. destruct c.
    - rewrite set_marks_nth, set_mark_nth, H. eexists. split; [reflexivity|]. split.
      + intros [->|(_ & I)]; [rewrite Nat.eqb_refl; now destruct (existsb _ _)|].
        apply (range_all l i d L E), existsb_eqb in I. now rewrite I.
      + intro N. destruct (existsb (Nat.eqb k) (range_of l i)) eqn:X.
        * apply existsb_eqb in X. destruct (range_ok l i d L E k X); exfalso; apply N; auto.
        * destruct (Nat.eqb_spec k i); [exfalso; apply N; auto|reflexivity].
    - rewrite set_mark_nth, H. eexists. split; [reflexivity|]. split.
      + intros [->|(X & _)]; [now rewrite Nat.eqb_refl|discriminate].
      + intro N. destruct (Nat.eqb_spec k i); [exfalso; apply N; auto|reflexivity]. }
  destruct C2 as (LN & C2). destruct p.
  - destruct (climb_ok l L i i (le_n i) B) as (ps & -> & PS). exists (set_marks false ps c2). split; [reflexivity|].
    split; [now rewrite set_marks_length|]. intros k v s H. destruct (C2 k v s H) as (v' & E' & T & N).
    rewrite set_marks_nth, E'. eexists. split; [reflexivity|]. split.
    + intros [X|[(_ & X)|X]].
      * rewrite T by tauto. now destruct (existsb _ _).
      * apply PS, existsb_eqb in X. now rewrite X.
      * rewrite T by tauto. now destruct (existsb _ _).
    + intro X. destruct (existsb (Nat.eqb k) ps) eqn:Y.
      * exfalso. apply existsb_eqb, PS in Y. apply X. auto.
      * apply N. tauto.
  - exists c2. split; [reflexivity|]. split; [exact LN|]. intros k v s H. destruct (C2 k v s H) as (v' & E' & T & N).
    exists v'. split; [exact E'|]. split; [intros [X|[(X & _)|X]]; try discriminate; apply T; tauto|intro X; apply N; tauto].
Qed.

(** ** mark *)
Lemma heap_set_mark_ok b h t i : heap_marks_changed (fun f => f = (t, i)) b h (heap_set_mark b h t i).
Proof.
  unfold heap_set_mark. split; [destruct (nth_error h t) as [[c e]|]; [apply cell_set_length|reflexivity]|].
  intros t2 cells e H. destruct (nth_error h t) as [[ct et]|] eqn:E.
  - rewrite cell_set_nth. destruct (Nat.eqb_spec t2 t) as [->|N].
    + assert (t < length h)%nat by (apply nth_error_Some; congruence). destruct (Nat.ltb_spec t (length h)); [|lia].
      rewrite E in H. inversion H; subst. exists (set_mark b cells i). split; [reflexivity|]. split; [apply set_mark_length|].
      intros k v s K. rewrite set_mark_nth, K. eexists. split; [reflexivity|]. split.
      * intro Q. injection Q as ->. now rewrite Nat.eqb_refl.
      * intro Q. destruct (Nat.eqb_spec k i); [subst; now elim Q|reflexivity].
    + exists cells. split; [exact H|]. split; [reflexivity|]. intros k v s K. exists v. split; [exact K|]. split; [intro Q; inversion Q; contradiction|auto].
  - exists cells. split; [exact H|]. split; [reflexivity|]. intros k v s K. exists v. split; [exact K|]. split; [intro Q; inversion Q; subst; congruence|auto].
Qed.
Lemma heap_changed_held P b h h' : heap_marks_changed P b h h' -> forall t f, held_by h' t f <-> held_by h t f.
Proof.
  intros (L & C) t f. unfold held_by. split; intros (cells & E).
  - destruct (nth_error h t) as [[c e]|] eqn:H.
    + destruct (C t c e H) as (c' & E' & _). rewrite E in E'. injection E' as -> <-. eauto.
    + apply nth_error_None in H. assert (t < length h')%nat by (apply nth_error_Some; congruence). lia.
  - destruct (C t cells _ E) as (c' & E' & _). eauto.
Qed.
Lemma around_mono h h' : (forall t f, held_by h t f -> held_by h' t f) -> forall t f, around h t f -> around h' t f.
Proof. intros H t f A. induction A as [t f B|t t' i f B _ IH]; [apply around_here; auto|eapply around_more; eauto]. Qed.
Lemma changed_trans P Q R b h1 h2 h3 : heap_marks_changed P b h1 h2 -> heap_marks_changed Q b h2 h3 ->
  (forall f, R f <-> P f \/ Q f) -> heap_marks_changed R b h1 h3.
Proof.
  intros (L1 & C1) (L2 & C2) X. split; [congruence|]. intros t cells e E. destruct (C1 t cells e E) as (c' & E' & M1 & M2).
  destruct (C2 t c' e E') as (c'' & E'' & M3 & M4). exists c''. split; [exact E''|]. split; [congruence|].
  intros k v s K. destruct (M2 k v s K) as (v' & K' & T1 & N1). destruct (M4 k v' s K') as (v'' & K'' & T2 & N2).
  exists v''. split; [exact K''|]. rewrite X. split.
  - intros [H|H]; [|auto]. apply T1 in H. subst v'.
    destruct v'', b; auto; exfalso.
    + assert (A : ~ Q (t, k)) by (intro H; specialize (T2 H); discriminate). specialize (N2 A). discriminate.
    + assert (A : ~ Q (t, k)) by (intro H; specialize (T2 H); discriminate). specialize (N2 A). discriminate.
  - intro H. rewrite N2 by tauto. apply N1. tauto.
Qed.
Lemma mark_enclosing_ok h : created_in_order h -> forall fuel t, (t <= fuel)%nat ->
  exists h', mark_enclosing fuel h t = Some h' /\ heap_marks_changed (around h t) true h h'.
Proof.
  intros O fuel. revert h O. induction fuel as [|f IH]; intros h O t F.
  - cbn [mark_enclosing]. destruct (nth_error h t) as [[c [[t' i']|]]|] eqn:E.
    + exfalso. assert (H : held_by h t (t', i')) by (exists c; exact E). apply O in H. lia.
    + exists h. split; [reflexivity|]. split; [reflexivity|]. intros t2 cells e H. exists cells. split; [exact H|]. split; [reflexivity|].
      intros k v s K. exists v. split; [exact K|]. split; [|auto]. intro A. inversion A as [g (cc & B)|a b g (cc & B) _]; congruence.
    + exists h. split; [reflexivity|]. split; [reflexivity|]. intros t2 cells e H. exists cells. split; [exact H|]. split; [reflexivity|].
      intros k v s K. exists v. split; [exact K|]. split; [|auto]. intro A. inversion A as [g (cc & B)|a b g (cc & B) _]; congruence.
  - cbn [mark_enclosing]. destruct (nth_error h t) as [[c [[t' i']|]]|] eqn:E.
    + assert (H : held_by h t (t', i')) by (exists c; exact E). pose proof (O _ _ _ H) as LT.
      pose proof (heap_set_mark_ok true h t' i') as S. pose proof (heap_changed_held _ _ _ _ S) as HB.
      destruct (IH (heap_set_mark true h t' i')) with (t := t') as (h' & -> & C).
      * intros a b k X. apply HB in X. eauto.
      * lia.
      * exists h'. split; [reflexivity|]. eapply changed_trans; [exact S|exact C|]. intro g. split.
        -- intro A. inversion A as [g' B|a b g' B A2]; subst.
           ++ left. destruct H as (c1 & H), B as (c2 & B). congruence.
           ++ right. apply (around_mono h). { intros; now apply HB. }
              assert (a = t') as -> by (destruct H as (c1 & H), B as (c2 & B); congruence). exact A2.
        -- intros [->|A]; [now apply around_here|]. eapply around_more; [exact H|].
           eapply around_mono; [|exact A]. intros; now apply HB.
    + exists h. split; [reflexivity|]. split; [reflexivity|]. intros t2 cells e H. exists cells. split; [exact H|]. split; [reflexivity|].
      intros k v s K. exists v. split; [exact K|]. split; [|auto]. intro A. inversion A as [g (cc & B)|a b g (cc & B) _]; congruence.
    + exists h. split; [reflexivity|]. split; [reflexivity|]. intros t2 cells e H. exists cells. split; [exact H|]. split; [reflexivity|].
      intros k v s K. exists v. split; [exact K|]. split; [|auto]. intro A. inversion A as [g (cc & B)|a b g (cc & B) _]; congruence.
Qed.
Lemma mark_ok h t i : created_in_order h -> (t < length h)%nat ->
  exists h', mark h t i true = Some h' /\ heap_marks_changed (fun f => f = (t, i) \/ around h t f) true h h'.
Proof.
  intros O B. unfold mark. cbv zeta. pose proof (heap_set_mark_ok true h t i) as S. pose proof (heap_changed_held _ _ _ _ S) as HB.
  destruct (mark_enclosing_ok (heap_set_mark true h t i)) with (fuel := length h) (t := t) as (h' & -> & C).
  - intros a b k X. apply HB in X. eauto.
  - lia.
  - exists h'. split; [reflexivity|]. eapply changed_trans; [exact S|exact C|]. intro f. split; (intros [H|H]; [now left|right]).
    + eapply around_mono; [|exact H]. intros; now apply HB.
    + eapply around_mono; [|exact H]. intros; now apply HB.
Qed.

(** ** iteration over marked fields *)
Lemma next_marked_ok l cells i n : forall fuel pos, (n - pos < fuel)%nat -> (pos <= n)%nat ->
  exists p, (pos <= p <= n)%nat /\ (forall q, (pos <= q < p)%nat -> marked_at cells (i + 1 + q) = false) /\
    ((p = n /\ next_marked fuel l cells i n pos = (n, n)) \/
     ((p < n)%nat /\ marked_at cells (i + 1 + p) = true /\
      next_marked fuel l cells i n pos = (p, p + f_size (nth (i + 1 + p) l (fd_new tc_Null)))%nat)).
Proof.
  induction fuel as [|f IH]; intros pos F B; [lia|]. cbn [next_marked]. destruct (Nat.ltb_spec pos n) as [G|G].
  - destruct (marked_at cells (i + 1 + pos)) eqn:M.
    + exists pos. split; [lia|]. split; [lia|]. right. repeat split; auto.
    + destruct (IH (S pos)) as (p & R & N & X); [lia|lia|]. exists p. split; [lia|]. split; [|exact X].
      intros q Q. destruct (Nat.eq_dec q pos) as [->|]; [exact M|]. apply N. lia.
  - exists n. split; [lia|]. split; [lia|]. left. split; [reflexivity|]. f_equal; lia.
Qed.

Section Imarked.
  Context (l : list fdesc) (cells : list cell) (i n : nat) (d : fdesc).
  Hypothesis L : lay l.
  Hypothesis E : nth_error l i = Some d.
  Hypothesis SZ : f_size d = S n.
  Let B : (i + S n <= length l)%nat.
  Proof. pose proof (lay_range l i d L E). lia. Qed.
  (* position q is covered by a marked field at or before it, inside i *)
  Definition cover (q : nat) : Prop :=
    exists k dk, (k <= q)%nat /\ nth_error l (i + 1 + k) = Some dk /\ marked_at cells (i + 1 + k) = true /\ (q < k + f_size dk)%nat.
  Definition state_ok (pos nc : nat) : Prop :=
    (forall k dk, (k < pos)%nat -> nth_error l (i + 1 + k) = Some dk -> marked_at cells (i + 1 + k) = true ->
       (k + f_size dk <= Nat.max nc pos)%nat) /\
    ((pos < nc)%nat -> exists k dk, (k < pos)%nat /\ nth_error l (i + 1 + k) = Some dk /\ marked_at cells (i + 1 + k) = true /\
       (k + f_size dk = nc)%nat).

  Lemma imarked_step pos nc : (pos <= n)%nat -> state_ok pos nc ->
    exists p nc', (if (pos <? nc)%nat then (pos, nc) else next_marked (S n) l cells i n pos) = (p, nc') /\
      (pos <= p <= n)%nat /\ (forall q, (pos <= q < p)%nat -> ~ cover q) /\
      ((p < n)%nat -> cover p /\ state_ok (S p) nc').
  Proof.
    intros P (S1 & S2). destruct (Nat.ltb_spec pos nc) as [G|G].
    - destruct (S2 G) as (k & dk & K1 & K2 & K3 & K4). exists pos, nc. split; [reflexivity|]. split; [lia|]. split; [lia|].
      intro PN. split; [exists k, dk; repeat split; auto; lia|]. split.
      + intros k' dk' Q H M. destruct (Nat.eq_dec k' pos) as [->|]; [|specialize (S1 k' dk' ltac:(lia) H M); lia].
        pose proof (lay_nested l (i + 1 + k) (i + 1 + pos) dk dk' L K2 H ltac:(lia)). lia.
      + intro. exists k, dk. repeat split; auto.
    - destruct (next_marked_ok l cells i n (S n) pos ltac:(lia) P) as (p & R & N & X).
      assert (U : forall q, (pos <= q < p)%nat -> ~ cover q).
      { intros q Q (k & dk & K1 & K2 & K3 & K4). destruct (Nat.lt_ge_cases k pos) as [C|C].
        - specialize (S1 k dk C K2 K3). lia.
        - rewrite N in K3 by lia. discriminate. }
      destruct X as [(-> & ->)|(PN & M & ->)].
      + exists n, n. split; [reflexivity|]. split; [lia|]. split; [exact U|lia].
      + destruct (node_at l (i + 1 + p)) as (dp & ED); [pose proof B; lia|]. rewrite (nth_error_nth _ _ _ ED).
        pose proof (f_size_pos dp). eexists _, _. split; [reflexivity|]. split; [lia|]. split; [exact U|]. intros _. split.
        * exists p, dp. repeat split; auto; lia.
        * split.
          -- intros k dk Q H0 M0. destruct (Nat.eq_dec k p) as [->|]; [replace dk with dp by congruence; lia|].
             destruct (Nat.lt_ge_cases k pos) as [C|C]; [specialize (S1 k dk C H0 M0); lia|]. rewrite N in M0 by lia. discriminate.
          -- intros _. exists p, dp. repeat split; auto.
  Qed.
  Lemma imarked_loop_ok : forall fuel pos nc, (pos <= n)%nat -> (n - pos < fuel)%nat -> state_ok pos nc ->
    exists r, imarked_loop fuel l cells i n pos nc = Some r /\ StronglySorted lt r /\
      forall j, In j r <-> exists q, j = (i + 1 + q)%nat /\ (pos <= q < n)%nat /\ cover q.
  Proof.
    induction fuel as [|f IH]; intros pos nc P F S; [lia|]. cbn [imarked_loop].
    destruct (imarked_step pos nc P S) as (p & nc' & -> & R & U & C). destruct (Nat.eqb_spec p n) as [->|N].
    - exists []. split; [reflexivity|]. split; [constructor|]. intro j. split; [easy|]. intros (q & -> & Q & X). exfalso. eapply U; eauto.
    - destruct C as (CP & ST); [lia|]. destruct (IH (Datatypes.S p) nc') as (r & -> & SO & IN); [lia|lia|exact ST|].
      eexists. split; [reflexivity|]. split.
      + constructor; [exact SO|]. apply Forall_forall. intros j J. apply IN in J as (q & -> & Q & _). lia.
      + intro j. cbn [In]. rewrite IN. split.
        * intros [<-|(q & -> & Q & X)]; [exists p|exists q]; repeat split; auto; lia.
        * intros (q & -> & Q & X). destruct (Nat.lt_trichotomy q p) as [T|[T|T]].
          -- exfalso. apply (U q); auto. lia.
          -- left. lia.
          -- right. exists q. repeat split; auto; lia.
  Qed.
  Lemma cover_iff q : (q < n)%nat -> (cover q <-> marked cells (i + 1 + q) \/
    exists k, is_inside l i k /\ marked cells k /\ is_inside l k (i + 1 + q)).
  Proof.
    intro Q. pose proof B as BB. split.
    - intros (k & dk & K1 & K2 & K3 & K4). apply marked_at_iff in K3. destruct (Nat.eq_dec k q) as [->|]; [now left|]. right.
      exists (i + 1 + k)%nat. split; [apply (inside_iff l i _ d L E); lia|]. split; [exact K3|]. apply (inside_iff l _ _ dk L K2). lia.
    - intros [M|(k & I & M & J)].
      + destruct (node_at l (i + 1 + q)) as (dq & EQ); [lia|]. pose proof (f_size_pos dq). exists q, dq. rewrite marked_at_iff. repeat split; auto; lia.
      + apply (inside_iff l i k d L E) in I. destruct (inside_range l k _ L J) as (dk & K & R).
        exists (k - i - 1)%nat, dk. replace (i + 1 + (k - i - 1))%nat with k by lia. rewrite marked_at_iff. repeat split; auto; lia.
  Qed.
End Imarked.

Lemma struct_lookup_size m i d : describable m = true -> nth_error (flatten m) i = Some d -> f_code d = tc_Struct ->
  f_size d = S (length (f_lookup d)).
Proof.
  intros D E C. pose proof (wf_vec_nodes _ (flatten_wf m D) i d E) as W. unfold f_size.
  inversion W; subst; try congruence.
  - rewrite C in H. discriminate.
  - rewrite C in H. discriminate.
  - rewrite H0. reflexivity.
  - rewrite C in H. discriminate.
Qed.

(** members of a Struct are listed in the order of their positions *)
Lemma lays_sorted off it l : lays off it l -> StronglySorted lt (map snd it) /\ Forall (fun p => (off <= snd p)%nat) it.
Proof.
  induction 1 as [|off n it sub rest L P LS (IH1 & IH2)]; [split; constructor|]. pose proof (lay_nonnil _ L) as NN.
  assert (1 <= length sub)%nat by (destruct sub; [easy|cbn; lia]). cbn [map snd]. split.
  - constructor; [exact IH1|]. apply Forall_map. eapply Forall_impl; [|exact IH2]. cbn. intros [a b]. cbn. lia.
  - constructor; [cbn; lia|]. eapply Forall_impl; [|exact IH2]. cbn. intros [a b]. cbn. lia.
Qed.
Lemma sorted_map_add i l : StronglySorted lt l -> StronglySorted lt (map (Nat.add i) l).
Proof. induction 1 as [|x l S IH F]; cbn; constructor; auto. apply Forall_map. eapply Forall_impl; [|exact F]. cbn. lia. Qed.
Lemma ichildren_ok l i d : lay l -> nth_error l i = Some d ->
  StronglySorted lt (ichildren l i) /\ forall j, In j (ichildren l i) <-> is_member l i j.
Proof.
  intros L E. unfold ichildren. rewrite E. destruct (Z.eqb_spec (f_code d) tc_Struct) as [C|C].
  - destruct (lay_members l i d L E C) as (kids & K & _). split.
    + rewrite <- (map_map snd (Nat.add i)). apply sorted_map_add. exact (proj1 (lays_sorted _ _ _ K)).
    + intro j. rewrite in_map_iff. split.
      * intros ((n & k) & <- & I). exists d, n, k. repeat split; auto.
      * intros (d' & n & k & E' & _ & I & ->). rewrite E in E'. injection E' as <-. exists (n, k). split; [reflexivity|exact I].
  - split; [constructor|]. intro j. split; [easy|]. intros (d' & n & k & E' & C' & _). congruence.
Qed.
Lemma seq_sorted a n : StronglySorted lt (seq a n).
Proof. revert a. induction n as [|n IH]; intro a; cbn; constructor; auto. apply Forall_forall. intros x H. apply in_seq in H. lia. Qed.
Lemma iall_ok m i d : storage m (flatten m) (repeat (false, SNull) (length (flatten m))) -> nth_error (flatten m) i = Some d ->
  f_code d = tc_Struct ->
  StronglySorted lt (iall (flatten m) i) /\ forall j, In j (iall (flatten m) i) <-> is_inside (flatten m) i j.
Proof.
  intros S E C. pose proof (storage_lay _ _ _ S) as L. destruct S as ((D & _) & _). unfold iall. rewrite E.
  replace (f_code d =? tc_Struct) with true by lia. pose proof (struct_lookup_size m i d D E C) as SZ. split.
  - rewrite (map_ext _ (Nat.add (i + 1))) by lia. apply sorted_map_add, seq_sorted.
  - intro j. rewrite (inside_iff _ i j d L E), SZ, in_map_iff. split.
    + intros (p & <- & I). apply in_seq in I. lia.
    + intro R. exists (j - i - 1)%nat. split; [lia|]. apply in_seq. lia.
Qed.

(** ** the selected member of a Union *)
Lemma miter_pos_found it s : In s (map snd it) -> exists n, nth_error it (miter_pos s it) = Some (n, s).
Proof.
  induction it as [|[n k] it IH]; [easy|]. cbn [map snd In miter_pos]. destruct (Nat.eqb_spec k s) as [->|N].
  - intros _. exists n. reflexivity.
  - intros [H|H]; [contradiction|]. destruct (IH H) as (n' & E). exists n'. exact E.
Qed.
Lemma imarked_union_none it : imarked_union (S (length it)) it None 0 = Some [].
Proof. cbn [imarked_union]. unfold next_union. destruct it as [|[n k] it]; cbn [nth_error length]; [reflexivity|]. now rewrite Nat.eqb_refl. Qed.
Lemma ss_nth_lt l : StronglySorted lt l -> forall a b x y, nth_error l a = Some x -> nth_error l b = Some y -> (a < b)%nat -> (x < y)%nat.
Proof.
  induction 1 as [|z l S IH F]; intros a b x y A B LT; [destruct a; discriminate|].
  destruct b as [|b]; [lia|]. destruct a as [|a]; cbn in A, B.
  - injection A as <-. rewrite Forall_forall in F. apply F. eapply nth_error_In. exact B.
  - eapply IH; eauto. lia.
Qed.
Lemma imarked_union_some it s n p : StronglySorted lt (map snd it) -> nth_error it p = Some (n, s) ->
  imarked_union (S (length it)) it (Some s) 0 = Some [p].
Proof.
  intros SO E. assert (PL : (p < length it)%nat) by (apply nth_error_Some; congruence).
  assert (END : forall q, (p < q <= length it)%nat -> next_union it (Some s) q = Some (length it)).
  { intros q Q. unfold next_union. destruct (nth_error it q) as [[n' k]|] eqn:EQ.
    - assert (s < k)%nat. { apply (ss_nth_lt _ SO p q); try lia; erewrite map_nth_error; eauto; reflexivity. }
      destruct (Nat.ltb_spec s k); [reflexivity|lia].
    - apply nth_error_None in EQ. f_equal. lia. }
  assert (FST : next_union it (Some s) 0 = Some p).
  { unfold next_union. destruct (nth_error it 0) as [[n' k]|] eqn:E0; [|apply nth_error_None in E0; lia].
    destruct (Nat.eq_dec p 0) as [->|NZ].
    - rewrite E in E0. injection E0 as <- <-. rewrite Nat.ltb_irrefl. reflexivity.
    - assert (k < s)%nat. { apply (ss_nth_lt _ SO 0 p); try lia; erewrite map_nth_error; eauto; reflexivity. }
      destruct (Nat.ltb_spec s k); [lia|]. destruct (Nat.ltb_spec k s); [|lia]. cbn [skipn Nat.add].
      destruct (miter_pos_found it s) as (n2 & M). { apply in_map_iff. exists (n, s). split; [reflexivity|eapply nth_error_In; exact E]. }
      assert (miter_pos s it = p) as ->.
      { destruct (Nat.lt_trichotomy (miter_pos s it) p) as [T|[T|T]]; [|exact T|].
        - assert (s < s)%nat; [|lia]. apply (ss_nth_lt _ SO (miter_pos s it) p); try lia; erewrite map_nth_error; eauto; reflexivity.
        - assert (s < s)%nat; [|lia]. apply (ss_nth_lt _ SO p (miter_pos s it)); try lia; erewrite map_nth_error; eauto; reflexivity. }
      cbv zeta. destruct (Nat.ltb_spec p (length it)); [reflexivity|lia]. }
  cbn [imarked_union]. rewrite FST. destruct (Nat.eqb_spec p (length it)); [lia|].
  destruct (length it) as [|k] eqn:LN; [lia|]. cbn [imarked_union]. rewrite END by lia. rewrite LN, Nat.eqb_refl. reflexivity.
Qed.

(** ** clear *)
Lemma clear_length l cells i d : nth_error l i = Some d -> (i + f_size d <= length cells)%nat -> length (clear l cells i) = length cells.
Proof.
  intros E B. unfold clear. rewrite E, !app_length, map_length. unfold cell in *. rewrite !firstn_length, !skipn_length. lia.
Qed.
Lemma clear_nth l cells i d k : nth_error l i = Some d -> (i + f_size d <= length cells)%nat ->
  nth_error (clear l cells i) k =
  if (i <=? k)%nat && (k <? i + f_size d)%nat
  then option_map (fun c => (false, clear_sto (snd c))) (nth_error cells k) else nth_error cells k.
Proof.
  intros E B. unfold clear. rewrite E. unfold cell in *.
  destruct (Nat.leb_spec i k) as [G|G]; cbn [andb].
  - rewrite nth_error_app2 by (rewrite firstn_length; lia). rewrite firstn_length. replace (Nat.min i (length cells)) with i by lia.
    destruct (Nat.ltb_spec k (i + f_size d)) as [G2|G2].
    + rewrite nth_error_app1 by (rewrite map_length, firstn_length, skipn_length; lia).
      rewrite nth_error_map, nth_error_firstn_lt by lia. rewrite nth_error_skipn_add. do 2 f_equal. lia.
    + rewrite nth_error_app2 by (rewrite map_length, firstn_length, skipn_length; lia).
      rewrite map_length, firstn_length, skipn_length, nth_error_skipn_add. f_equal. lia.
  - rewrite nth_error_app1 by (rewrite firstn_length; lia). apply nth_error_firstn_lt. lia.
Qed.
Lemma clear_sto_init d s s0 : sto_init (f_code d) = Some s0 -> same_kind s0 s -> clear_sto s = s0.
Proof.
  unfold sto_init. repeat match goal with |- context [if ?b then _ else _] => destruct b end; intro H; inversion H; subst;
    destruct s; cbn; try easy.
Qed.

Lemma iter_from_sorted cs : forall off, StronglySorted lt (map snd (iter_from off cs)) /\ Forall (fun p => (off <= snd p)%nat) (iter_from off cs).
Proof.
  induction cs as [|c cs IH]; intro off; cbn [iter_from map snd]; [split; constructor|].
  destruct (IH (off + length (flatten c))%nat) as (A & B). pose proof (flatten_length c). split.
  - constructor; [exact A|]. apply Forall_map. eapply Forall_impl; [|exact B]. intros [a b]. cbn. lia.
  - constructor; [cbn; lia|]. eapply Forall_impl; [|exact B]. intros [a b]. cbn. lia.
Qed.
Lemma flatten_iter_sorted m : Forall (fun d => StronglySorted lt (map snd (f_iter d))) (flatten m).
Proof.
  induction m as [code name id cs IH] using member_ind'. rewrite flatten_eq. destruct (is_array_of_compound code).
  - repeat constructor.
  - rewrite flatten_plain_eq. cbv zeta.
    assert (K : forall st off, Forall (fun d => StronglySorted lt (map snd (f_iter d))) (kids_from st off cs)).
    { induction IH as [|c cs H _ IHc]; intros st off; cbn [kids_from]; [constructor|]. apply Forall_app. split; [|apply IHc].
      destruct st; [|exact H]. destruct (flatten c) as [|d l]; [constructor|]. cbn [set_parent]. inversion H; subst. constructor; auto. }
    destruct (code =? tc_Struct).
    + constructor; [|apply K]. cbn [f_iter]. apply iter_from_sorted.
    + constructor; [|constructor]. cbn [f_iter]. apply iter_from_sorted.
Qed.
