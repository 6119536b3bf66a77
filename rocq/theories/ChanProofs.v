(** Invariants of the client's channels: each is listed where it says it is. *)
From Coq Require Import ZArith List Bool Arith Lia.
From Verif Require Import Base BaseProofs ChanModel.
Import ListNotations.

(** ** Lists *)
Lemma is_in_iff i l : is_in i l = true <-> In i l.
Proof. unfold is_in. rewrite existsb_exists. split; [intros (j & H & E); apply Nat.eqb_eq in E; subst; exact H|intros H; exists i; rewrite Nat.eqb_refl; auto]. Qed.
Lemma in_without i j l : In j (without i l) <-> j <> i /\ In j l.
Proof. unfold without. rewrite filter_In. destruct (Nat.eqb_spec i j); cbn; intuition congruence. Qed.
Lemma in_with i j l : In j (with_ i l) <-> j = i \/ In j l.
Proof.
  unfold with_. destruct (is_in i l) eqn:E.
  - apply is_in_iff in E. split; [auto|intros [-> | H]; auto].
  - rewrite in_app_iff. cbn. intuition.
Qed.
Lemma in_without_sid s d j l : In (d, j) (without_sid s l) <-> d <> s /\ In (d, j) l.
Proof. unfold without_sid. rewrite filter_In. cbn. destruct (Z.eqb_spec s d); cbn; intuition congruence. Qed.
Lemma nodup_filter {A B} (f : A -> B) p l : NoDup (map f l) -> NoDup (map f (filter p l)).
Proof.
  induction l as [|a l IH]; cbn; intros H; [constructor|]. inversion H; subst. destruct (p a); cbn; [|auto].
  constructor; [|auto]. intros I. apply in_map_iff in I. destruct I as (b & E & I). apply filter_In in I. apply H2. rewrite <- E. apply in_map, I.
Qed.
Lemma find_sid_in s l i : find_sid s l = Some i -> In (s, i) l.
Proof.
  unfold find_sid. destruct (find _ l) as [(d, j)|] eqn:E; [|discriminate]. cbn. intros H. inversion H; subst.
  apply find_some in E. destruct E as (I & E). apply Z.eqb_eq in E. cbn in E. subst. exact I.
Qed.
Lemma upd_same {A} (f : nat -> option A) k v : upd f k v k = v.
Proof. unfold upd. rewrite Nat.eqb_refl. reflexivity. Qed.
Lemma upd_other {A} (f : nat -> option A) k v j : j <> k -> upd f k v j = f j.
Proof. unfold upd. destruct (Nat.eqb_spec j k); congruence. Qed.

(** ** Where channels are *)
Definition place (x : ctx) (i : nat) : option (nat * cstate * Z) :=
  match x_chans x i with Some c => match c_conn c with Some n => Some (n, c_state c, c_sid c) | None => None end | None => None end.
Record coreA (x : ctx) : Prop := {
  a_chan : forall i c, x_chans x i = Some c -> i < x_nc x;
  a_conn : forall n k, x_conns x n = Some k -> n < x_nn x;
  a_addr : forall a n, x_addr x a = Some n -> exists k, x_conns x n = Some k /\ n_addr k = a;
  a_live : forall i n s d, place x i = Some (n, s, d) -> exists k, x_conns x n = Some k;
  a_has : forall i c, x_chans x i = Some c -> c_state c <> Searching -> c_conn c <> None;
  a_pend : forall n k i, x_conns x n = Some k -> (In i (n_pending k) <-> exists d, place x i = Some (n, Connecting, d));
  a_crea : forall n k i, x_conns x n = Some k -> (In i (n_creating k) <-> exists d, place x i = Some (n, Creating, d));
  a_sid : forall n k i d, x_conns x n = Some k -> (In (d, i) (n_bysid k) <-> place x i = Some (n, Active, d));
  a_sids : forall n k, x_conns x n = Some k -> NoDup (map fst (n_bysid k));
  a_ns : forall a n, In (a, Some n) (x_ns x) -> exists k, x_conns x n = Some k
}.
Lemma place_eq x x' i : x_chans x' i = x_chans x i -> place x' i = place x i.
Proof. unfold place. intros ->. reflexivity. Qed.

(** Channel i changes, and lists of connections with it. *)
Definition same_but (i : nat) (k k' : conn) : Prop :=
  n_addr k' = n_addr k /\
  forall j, j <> i -> (In j (n_pending k') <-> In j (n_pending k)) /\ (In j (n_creating k') <-> In j (n_creating k)) /\
                      (forall d, In (d, j) (n_bysid k') <-> In (d, j) (n_bysid k)).
Lemma same_but_refl i k : same_but i k k.
Proof. split; [reflexivity|]. intros. repeat split; auto. Qed.
Definition placed (x : ctx) (i m : nat) (k : conn) : Prop :=
  (In i (n_pending k) <-> exists d, place x i = Some (m, Connecting, d)) /\
  (In i (n_creating k) <-> exists d, place x i = Some (m, Creating, d)) /\
  (forall d, In (d, i) (n_bysid k) <-> place x i = Some (m, Active, d)) /\
  NoDup (map fst (n_bysid k)).
Lemma coreA_move x x' i :
  coreA x ->
  (forall j, j <> i -> x_chans x' j = x_chans x j) ->
  (forall a n, x_addr x' a = Some n -> x_addr x a = Some n) ->
  (forall p, In p (x_ns x') -> In p (x_ns x)) -> x_nc x <= x_nc x' -> x_nn x <= x_nn x' ->
  (forall c, x_chans x' i = Some c -> i < x_nc x') ->
  (forall m k', x_conns x' m = Some k' -> exists k, x_conns x m = Some k /\ same_but i k k') ->
  (forall m k, x_conns x m = Some k -> exists k', x_conns x' m = Some k') ->
  (forall m k', x_conns x' m = Some k' -> placed x' i m k') ->
  (forall n s d, place x' i = Some (n, s, d) -> exists k, x_conns x n = Some k) ->
  (forall c, x_chans x' i = Some c -> c_state c <> Searching -> c_conn c <> None) ->
  coreA x'.
Proof.
  intros C Hc Ha Hns Hl Hl2 Hi Hk Hk2 Hp Hlv Hhas. constructor.
  - intros j c E. destruct (Nat.eq_dec j i) as [-> | N]; [eauto|]. rewrite (Hc _ N) in E. apply (a_chan _ C) in E. lia.
  - intros n k E. destruct (Hk _ _ E) as (k0 & E0 & _). apply (a_conn _ C) in E0. lia.
  - intros a n E. apply Ha in E. destruct (a_addr _ C _ _ E) as (k & Ek & Ea). destruct (Hk2 _ _ Ek) as (k' & Ek'). exists k'. split; [exact Ek'|].
    destruct (Hk _ _ Ek') as (k0 & E0 & S & _). congruence.
  - intros j n s d E. destruct (Nat.eq_dec j i) as [-> | N].
    + destruct (Hlv _ _ _ E) as (k & Ek). apply (Hk2 _ _ Ek).
    + rewrite (place_eq x x' j (Hc _ N)) in E. destruct (a_live _ C _ _ _ _ E) as (k & Ek). apply (Hk2 _ _ Ek).
  - intros j c E. destruct (Nat.eq_dec j i) as [-> | N]; [auto|]. rewrite (Hc _ N) in E. apply (a_has _ C _ _ E).
  - intros n k' j E. destruct (Nat.eq_dec j i) as [-> | N]; [apply (Hp _ _ E)|]. destruct (Hk _ _ E) as (k & Ek & _ & S).
    rewrite (place_eq x x' j (Hc _ N)). rewrite (proj1 (S j N)). apply (a_pend _ C _ _ _ Ek).
  - intros n k' j E. destruct (Nat.eq_dec j i) as [-> | N]; [apply (Hp _ _ E)|]. destruct (Hk _ _ E) as (k & Ek & _ & S).
    rewrite (place_eq x x' j (Hc _ N)). destruct (S j N) as (_ & -> & _). apply (a_crea _ C _ _ _ Ek).
  - intros n k' j d E. destruct (Nat.eq_dec j i) as [-> | N]; [apply (Hp _ _ E)|]. destruct (Hk _ _ E) as (k & Ek & _ & S).
    rewrite (place_eq x x' j (Hc _ N)). destruct (S j N) as (_ & _ & ->). apply (a_sid _ C _ _ _ _ Ek).
  - intros n k' E. apply (Hp _ _ E).
  - intros a n I. destruct (a_ns _ C _ _ (Hns _ I)) as (k & Ek). apply (Hk2 _ _ Ek).
Qed.
(** Nothing of this changes. *)
Lemma coreA_same x x' :
  coreA x -> (forall j, place x' j = place x j) -> (forall j c, x_chans x' j = Some c -> j < x_nc x' /\ (c_state c <> Searching -> c_conn c <> None)) ->
  (forall a n, x_addr x' a = Some n -> x_addr x a = Some n) ->
  (forall p, In p (x_ns x') -> In p (x_ns x)) -> x_nn x <= x_nn x' ->
  (forall m k', x_conns x' m = Some k' -> exists k, x_conns x m = Some k /\ n_addr k' = n_addr k /\ n_pending k' = n_pending k /\ n_creating k' = n_creating k /\ n_bysid k' = n_bysid k) ->
  (forall m k, x_conns x m = Some k -> exists k', x_conns x' m = Some k') ->
  coreA x'.
Proof.
  intros C Hp Hc Ha Hns Hl2 Hk Hk2. constructor.
  - intros j c E. apply (Hc _ _ E).
  - intros n k E. destruct (Hk _ _ E) as (k0 & E0 & _). apply (a_conn _ C) in E0. lia.
  - intros a n E. apply Ha in E. destruct (a_addr _ C _ _ E) as (k & Ek & Ea). destruct (Hk2 _ _ Ek) as (k' & Ek'). exists k'. split; [exact Ek'|].
    destruct (Hk _ _ Ek') as (k0 & E0 & S & _). congruence.
  - intros j n s d E. rewrite Hp in E. destruct (a_live _ C _ _ _ _ E) as (k & Ek). apply (Hk2 _ _ Ek).
  - intros j c E. apply (Hc _ _ E).
  - intros n k' j E. destruct (Hk _ _ E) as (k & Ek & _ & S & _). rewrite S, Hp. apply (a_pend _ C _ _ _ Ek).
  - intros n k' j E. destruct (Hk _ _ E) as (k & Ek & _ & _ & S & _). rewrite S, Hp. apply (a_crea _ C _ _ _ Ek).
  - intros n k' j d E. destruct (Hk _ _ E) as (k & Ek & _ & _ & _ & S). rewrite S, Hp. apply (a_sid _ C _ _ _ _ Ek).
  - intros n k' E. destruct (Hk _ _ E) as (k & Ek & _ & _ & _ & S). rewrite S. apply (a_sids _ C _ _ Ek).
  - intros a n I. destruct (a_ns _ C _ _ (Hns _ I)) as (k & Ek). apply (Hk2 _ _ Ek).
Qed.

(** ** The parts of the model *)
Lemma coreA_build_conn a r ok x x' o : coreA x -> build_conn a r ok x = (x', o) ->
  coreA x' /\ (forall n, o = Some n -> exists k, x_conns x' n = Some k /\ n_addr k = a) /\ x_chans x' = x_chans x.
Proof.
  intros C E. unfold build_conn in E. destruct (negb (x_run x)); [inversion E; subst; split; [exact C|split; [discriminate|reflexivity]]|].
  destruct (x_addr x a) as [n|] eqn:Ea.
  { inversion E; subst. split; [exact C|split; [|reflexivity]]. intros m Em. inversion Em; subst. apply (a_addr _ C _ _ Ea). }
  destruct (r || ok); inversion E; subst; [|split; [exact C|split; [discriminate|reflexivity]]]. clear E.
  assert (Fresh : x_conns x (x_nn x) = None).
  { destruct (x_conns x (x_nn x)) eqn:F; [|reflexivity]. apply (a_conn _ C) in F. lia. }
  split; [|split; [|reflexivity]].
  2: { intros n En. inversion En; subst. cbn. rewrite upd_same. eexists. split; reflexivity. }
  assert (Np : forall i s d, place x i <> Some (x_nn x, s, d)).
  { intros i s d H. destruct (a_live _ C _ _ _ _ H) as (k & Ek). congruence. }
  constructor; cbn -[new_conn].
  - apply (a_chan _ C).
  - intros n k H. unfold upd in H. destruct (Nat.eqb_spec n (x_nn x)); [lia|]. apply (a_conn _ C) in H. lia.
  - intros b n H. destruct (Z.eqb_spec b a) as [-> | N].
    + inversion H; subst. rewrite upd_same. eexists. split; reflexivity.
    + destruct (a_addr _ C _ _ H) as (k & Ek & E2). rewrite upd_other; [eauto|congruence].
  - intros i n s d H. destruct (a_live _ C _ _ _ _ H) as (k & Ek). rewrite upd_other; [eauto|congruence].
  - apply (a_has _ C).
  - intros n k i H. unfold upd in H. destruct (Nat.eqb_spec n (x_nn x)) as [-> | N].
    + inversion H; subst. cbn. split; [intros []|intros (d & K); apply (Np _ _ _ K)].
    + apply (a_pend _ C _ _ _ H).
  - intros n k i H. unfold upd in H. destruct (Nat.eqb_spec n (x_nn x)) as [-> | N].
    + inversion H; subst. cbn. split; [intros []|intros (d & K); apply (Np _ _ _ K)].
    + apply (a_crea _ C _ _ _ H).
  - intros n k i d H. unfold upd in H. destruct (Nat.eqb_spec n (x_nn x)) as [-> | N].
    + inversion H; subst. cbn. split; [intros []|intros K; apply (Np _ _ _ K)].
    + apply (a_sid _ C _ _ _ _ H).
  - intros n k H. unfold upd in H. destruct (Nat.eqb_spec n (x_nn x)) as [-> | N]; [inversion H; subst; constructor|]. apply (a_sids _ C _ _ H).
  - intros b n I. destruct (a_ns _ C _ _ I) as (k & Ek). rewrite upd_other; [eauto|congruence].
Qed.
Lemma each_inv {A} (P : ctx -> Prop) (f : A -> ctx -> option ctx) l :
  (forall a x x', In a l -> P x -> f a x = Some x' -> P x') -> forall x x', P x -> each f l x = Some x' -> P x'.
Proof.
  induction l as [|a l IH]; intros H x x' Px E; cbn [each] in E; [inversion E; subst; exact Px|].
  unfold bind in E. destruct (f a x) as [y|] eqn:Ef; [|discriminate].
  apply (IH (fun b z z' I => H b z z' (or_intror I)) y x'); [|exact E]. apply (H a x y (or_introl eq_refl) Px Ef).
Qed.
(** a channel alone in its connection's lists *)
Lemma upd_conn_cases {A} (f : nat -> option A) n v m w : upd f n (Some v) m = Some w -> (m = n /\ w = v) \/ (m <> n /\ f m = Some w).
Proof. unfold upd. destruct (Nat.eqb_spec m n); [left; split; congruence|right; auto]. Qed.
Lemma coreA_set_both x i c c' n k k' :
  coreA x -> x_chans x i = Some c -> x_conns x n = Some k -> same_but i k k' ->
  (forall m, m <> n -> c_conn c = Some m -> c_state c = Searching) ->
  (c_conn c' = Some n \/ (c_conn c' = c_conn c /\ c_state c' = Searching) \/ c_conn c' = None) ->
  (c_state c' <> Searching -> c_conn c' <> None) ->
  placed (set_chan i (Some c') (set_conn n (Some k') x)) i n k' ->
  coreA (set_chan i (Some c') (set_conn n (Some k') x)).
Proof.
  intros C Ec Ek S Hm Hc' Hh P.
  apply (coreA_move x _ i C); cbn [set_chan set_conn x_chans x_conns x_addr x_ns x_nc x_nn].
  - intros j N. apply upd_other, N.
  - auto.
  - auto.
  - lia.
  - lia.
  - intros _ _. apply (a_chan _ C _ _ Ec).
  - intros m q E. apply upd_conn_cases in E. destruct E as [(-> & ->) | (N & E)]; [exists k; auto|exists q; split; [exact E|apply same_but_refl]].
  - intros m q E. unfold upd. destruct (Nat.eqb_spec m n); eauto.
  - intros m q E. apply upd_conn_cases in E. destruct E as [(-> & ->) | (N & E)]; [exact P|].
    assert (Pl : forall s d, s <> Searching -> place x i <> Some (m, s, d)).
    { intros s d Ns H. unfold place in H. rewrite Ec in H. destruct (c_conn c) as [p|] eqn:Ep; [|discriminate]. inversion H; subst. apply Ns, (Hm m N eq_refl). }
    assert (Pl' : forall s d, s <> Searching -> place (set_chan i (Some c') (set_conn n (Some k') x)) i <> Some (m, s, d)).
    { intros s d Ns H. unfold place in H. cbn [set_chan set_conn x_chans] in H. rewrite upd_same in H. destruct (c_conn c') as [p|] eqn:Ep; [|discriminate].
      inversion H; subst. destruct Hc' as [K | [(K & K2) | K]]; congruence. }
    split; [|split; [|split]].
    + rewrite (a_pend _ C _ _ _ E). split; intros (d & H); exfalso; [apply (Pl _ d) in H|apply (Pl' _ d) in H]; congruence.
    + rewrite (a_crea _ C _ _ _ E). split; intros (d & H); exfalso; [apply (Pl _ d) in H|apply (Pl' _ d) in H]; congruence.
    + intros d. rewrite (a_sid _ C _ _ _ _ E). split; intros H; exfalso; [apply (Pl _ d) in H|apply (Pl' _ d) in H]; congruence.
    + apply (a_sids _ C _ _ E).
  - intros m s d H. unfold place in H. cbn [set_chan set_conn x_chans] in H. rewrite upd_same in H. destruct (c_conn c') as [p|] eqn:Ep; [|discriminate].
    inversion H; subst. destruct Hc' as [K | [(K & K2) | K]]; [inversion K; subst; eauto| |discriminate].
    apply (a_live _ C i m (c_state c) (c_sid c)). unfold place. rewrite Ec, <- K. reflexivity.
  - intros c0 E. rewrite upd_same in E. inversion E; subst. exact Hh.
Qed.
Lemma coreA_emit l x : coreA x -> coreA (emit l x).
Proof. intros [H1 H2 H3 H4 H5 H6 H7 H8 H9 H10]. constructor; assumption. Qed.
Lemma coreA_search l x : coreA x -> coreA (set_search l x).
Proof. intros [H1 H2 H3 H4 H5 H6 H7 H8 H9 H10]. constructor; assumption. Qed.
Lemma place_i x i c n : x_chans x i = Some c -> c_conn c = Some n -> place x i = Some (n, c_state c, c_sid c).
Proof. intros E E2. unfold place. rewrite E, E2. reflexivity. Qed.
Lemma place_set x i c : place (set_chan i (Some c) x) i = match c_conn c with Some n => Some (n, c_state c, c_sid c) | None => None end.
Proof. unfold place. cbn. rewrite upd_same. reflexivity. Qed.

(** ** Moves *)
Lemma in_sid_none x n k d : coreA x -> x_conns x n = Some k -> ~ In d (map fst (n_bysid k)) -> forall j, ~ In (d, j) (n_bysid k).
Proof. intros _ _ N j H. apply N. apply in_map_iff. exists (d, j). auto. Qed.
(** A channel which is searched for is given to a connection. *)
Lemma coreA_attach1 x i n c k :
  coreA x -> x_chans x i = Some c -> x_conns x n = Some k -> c_state c = Searching ->
  coreA (set_chan i (Some (c_with_state Connecting (c_with_conn (Some n) c)))
         (set_conn n (Some (n_with_lists (with_ i (n_pending k)) (n_creating k) (n_bysid k) k)) x)).
Proof.
  intros C Ec Ek Es. apply (coreA_set_both x i c _ n k _ C Ec Ek).
  - split; [reflexivity|]. intros j N. cbn. rewrite in_with. repeat split; intuition.
  - auto.
  - left. reflexivity.
  - discriminate.
  - assert (Ps : forall s d, s <> Searching -> place x i <> Some (n, s, d)).
    { intros s d Ns H. unfold place in H. rewrite Ec in H. destruct (c_conn c); [|discriminate]. inversion H. congruence. }
    unfold placed. rewrite place_set. cbn [c_conn c_with_state c_with_conn c_state c_sid n_pending n_with_lists n_creating n_bysid]. split; [|split; [|split]].
    + rewrite in_with. split; [intros _; eauto|intros _; auto].
    + rewrite (a_crea _ C _ _ _ Ek). split; [intros (d & H); exfalso; apply (Ps _ d) in H; congruence|intros (d & H); discriminate].
    + intros d. rewrite (a_sid _ C _ _ _ _ Ek). split; [intros H; exfalso; apply (Ps _ d) in H; congruence|discriminate].
    + apply (a_sids _ C _ _ Ek).
Qed.
Lemma coreA_create_one n i x x' : coreA x -> (forall c, x_chans x i = Some c -> c_conn c = Some n) -> create_one n i x = Some x' -> coreA x'.
Proof.
  intros C Hn E. unfold create_one in E. destruct (x_conns x n) as [k|] eqn:Ek; [|discriminate].
  assert (Drop : (forall d, place x i <> Some (n, Connecting, d)) ->
     coreA (set_conn n (Some (n_with_lists (without i (n_pending k)) (n_creating k) (n_bysid k) k)) x)).
  { intros Np. assert (Ni : ~ In i (n_pending k)). { intros I. apply (a_pend _ C _ _ _ Ek) in I. destruct I as (d & I). apply (Np _ I). }
    assert (W : without i (n_pending k) = n_pending k).
    { clear - Ni. induction (n_pending k) as [|j l IH]; cbn; [reflexivity|]. cbn in Ni. destruct (Nat.eqb_spec i j) as [-> | N]; [exfalso; apply Ni; left; reflexivity|]. cbn. f_equal. apply IH. intros H. apply Ni. right. exact H. }
    rewrite W. apply (coreA_same x); try exact C; cbn; auto.
    - intros j c H. split; [apply (a_chan _ C _ _ H)|apply (a_has _ C _ _ H)].
    - intros m q H. apply upd_conn_cases in H. destruct H as [(-> & ->) | (N & H)]; [exists k; auto|exists q; auto].
    - intros m q H. unfold upd. destruct (Nat.eqb_spec m n); eauto. }
  destruct (x_chans x i) as [c|] eqn:Ec.
  2: { inversion E; subst. apply Drop. intros d H. unfold place in H. rewrite Ec in H. discriminate. }
  destruct (c_state c) eqn:Es;
    try (inversion E; subst; apply Drop; intros d H; unfold place in H; rewrite Ec in H; destruct (c_conn c); [|discriminate]; inversion H; congruence).
  destruct (n_bev k); [|discriminate]. inversion E; subst. clear E Drop. apply coreA_emit.
  pose proof (Hn _ eq_refl) as Em.
  apply (coreA_set_both x i c _ n k _ C Ec Ek).
    + split; [reflexivity|]. intros j N. cbn. rewrite in_with, in_without. repeat split; intuition.
    + intros m N H. congruence.
    + left. exact Em.
    + cbn. congruence.
    + pose proof (place_i x i c n Ec Em) as Pl. rewrite Es in Pl.
      unfold placed. rewrite place_set. cbn [c_conn c_with_state c_state c_sid n_pending n_with_lists n_creating n_bysid]. rewrite Em. split; [|split; [|split]].
      * rewrite in_without. split; [intros (H & _); congruence|intros (d & H); discriminate].
      * rewrite in_with. split; [intros _; eauto|auto].
      * intros d. rewrite (a_sid _ C _ _ _ _ Ek), Pl. split; discriminate.
      * apply (a_sids _ C _ _ Ek).
Qed.
(** What createChannels() does to channels: those which waited are created. *)
Definition may_create (x x' : ctx) (n : nat) : Prop :=
  forall j, x_chans x' j = x_chans x j \/
            exists c, x_chans x j = Some c /\ c_state c = Connecting /\ c_conn c = Some n /\ x_chans x' j = Some (c_with_state Creating c).
(** the rest of the context *)
Definition same_ctx (x x' : ctx) : Prop :=
  x_run x' = x_run x /\ x_names x' = x_names x /\ x_addr x' = x_addr x /\ x_search x' = x_search x /\ x_ns x' = x_ns x /\
  x_nc x' = x_nc x /\ x_nn x' = x_nn x /\ x_no x' = x_no x /\ x_nw x' = x_nw x.
Lemma same_ctx_refl x : same_ctx x x.
Proof. repeat split. Qed.
Lemma same_ctx_trans x y z : same_ctx x y -> same_ctx y z -> same_ctx x z.
Proof. unfold same_ctx. intuition congruence. Qed.
Definition same_tcp (k k' : conn) : Prop :=
  n_addr k' = n_addr k /\ n_state k' = n_state k /\ n_bev k' = n_bev k /\ n_timer k' = n_timer k /\ n_ready k' = n_ready k /\ n_ns k' = n_ns k.
Lemma same_tcp_refl k : same_tcp k k.
Proof. repeat split. Qed.
Lemma same_tcp_trans a b c : same_tcp a b -> same_tcp b c -> same_tcp a c.
Proof. unfold same_tcp. intuition congruence. Qed.
Record made (n : nat) (x x' : ctx) : Prop := {
  m_core : coreA x';
  m_chan : may_create x x' n;
  m_ctx : same_ctx x x';
  m_conns : forall m, m <> n -> x_conns x' m = x_conns x m;
  m_conn : forall k, x_conns x n = Some k -> exists k', x_conns x' n = Some k' /\ same_tcp k k' /\ n_ops k' = n_ops k;
  m_out : exists l, x_out x' = x_out x ++ l /\ forall o, In o l -> exists i name, o = OCreate n i name
}.
Lemma made_one n i x0 x x' : made n x0 x -> (exists c, x_chans x i = Some c /\ c_conn c = Some n) -> create_one n i x = Some x' ->
  made n x0 x' /\ (forall c, x_chans x' i = Some c -> c_state c <> Connecting) /\
  (forall j, (exists c, x_chans x j = Some c /\ c_conn c = Some n) -> exists c, x_chans x' j = Some c /\ c_conn c = Some n) /\
  (forall j c, x_chans x' j = Some c -> c_state c = Connecting -> x_chans x j = Some c).
Proof.
  intros [C Hm Hx Ho Hk Hl] (c & Ec & En) E.
  assert (C' : coreA x'). { apply (coreA_create_one n i x); [exact C| |exact E]. intros c0 E0. congruence. }
  unfold create_one in E. destruct (x_conns x n) as [k|] eqn:Ek; [|discriminate]. rewrite Ec in E.
  assert (Conn : forall kk x2, x2 = set_conn n (Some kk) x -> same_tcp k kk -> n_ops kk = n_ops k ->
     same_ctx x0 x2 /\ (forall m, m <> n -> x_conns x2 m = x_conns x0 m) /\
     (forall k0, x_conns x0 n = Some k0 -> exists k', x_conns x2 n = Some k' /\ same_tcp k0 k' /\ n_ops k' = n_ops k0)).
  { intros kk x2 -> T O. split; [exact Hx|split].
    - intros m N. cbn. rewrite upd_other by exact N. apply Ho, N.
    - intros k0 E0. destruct (Hk _ E0) as (k1 & E1 & T1 & O1). cbn. rewrite upd_same. exists kk. split; [reflexivity|].
      try rewrite Ek in E1. inversion E1; subst. split; [eapply same_tcp_trans; eauto|congruence]. }
  destruct (c_state c) eqn:Es;
    try (inversion E; subst; clear E; destruct (Conn (n_with_lists (without i (n_pending k)) (n_creating k) (n_bysid k) k) _ eq_refl) as (A1 & A2 & A3); [repeat split|reflexivity|];
         split; [constructor; [exact C'|exact Hm|exact A1|exact A2|exact A3|exact Hl]|];
         split; [cbn; intros c0 H0; congruence|split; [cbn; auto|cbn; auto]]).
  destruct (n_bev k); [|discriminate]. inversion E; subst. clear E.
  destruct (Conn (n_with_lists (without i (n_pending k)) (with_ i (n_creating k)) (n_bysid k) k) _ eq_refl) as (A1 & A2 & A3); [repeat split|reflexivity|].
  split; [constructor; [exact C'| |exact A1|exact A2|exact A3|]|].
  - intros j. cbn. unfold upd. destruct (Nat.eqb_spec j i) as [-> | N]; [|apply Hm].
    right. destruct (Hm i) as [H | (c0 & H & H1 & H2 & H3)].
    + exists c. rewrite <- H. auto.
    + rewrite H3 in Ec. inversion Ec; subst. discriminate.
  - destruct Hl as (l & El & Hl). exists (l ++ [OCreate n i (c_name c)]). split; [cbn; rewrite El, app_assoc; reflexivity|].
    intros o I. apply in_app_iff in I. destruct I as [I | [<- | []]]; eauto.
  - split; [|split].
    + cbn. intros c0 H. rewrite upd_same in H. inversion H; subst. discriminate.
    + cbn. intros j (c0 & H & H1). unfold upd. destruct (Nat.eqb_spec j i) as [-> | N]; [eexists; split; [reflexivity|exact En]|eauto].
    + cbn. intros j c0 H H1. unfold upd in H. destruct (Nat.eqb_spec j i) as [-> | N]; [inversion H; subst; discriminate|exact H].
Qed.
Lemma made_refl n x : coreA x -> made n x x.
Proof.
  intros C. constructor; [exact C|intros j; left; reflexivity|apply same_ctx_refl|auto| |exists []; rewrite app_nil_r; split; [reflexivity|intros o []]].
  intros k E. exists k. split; [exact E|split; [apply same_tcp_refl|reflexivity]].
Qed.
Lemma made_channels n x x' : coreA x -> create_channels n x = Some x' ->
  made n x x' /\ (forall k, x_conns x n = Some k -> n_ready k = true -> forall j c, x_chans x' j = Some c -> c_state c = Connecting -> c_conn c <> Some n).
Proof.
  intros C E. unfold create_channels in E. destruct (x_conns x n) as [k|] eqn:Ek; [|discriminate].
  destruct (n_ready k) eqn:Er.
  2: { inversion E; subst. split; [apply made_refl, C|]. intros k0 H. inversion H; subst. congruence. }
  assert (G : forall l y y', (forall i, In i l -> exists c, x_chans y i = Some c /\ c_conn c = Some n) -> made n x y -> each (create_one n) l y = Some y' ->
     made n x y' /\ (forall j c, In j l -> x_chans y' j = Some c -> c_state c <> Connecting) /\
     (forall j c, x_chans y' j = Some c -> c_state c = Connecting -> x_chans y j = Some c)).
  { induction l as [|i l IH]; intros y y' Hl M H; cbn [each] in H.
    - inversion H; subst. split; [exact M|split; [intros j c []|auto]].
    - unfold bind in H. destruct (create_one n i y) as [z|] eqn:Ez; [|discriminate].
      destruct (made_one n i x y z M (Hl i (or_introl eq_refl)) Ez) as (M1 & A1 & A2 & A3).
      destruct (IH z y' (fun j I => A2 j (Hl j (or_intror I))) M1 H) as (M2 & B1 & B2).
      split; [exact M2|split].
      + intros j c [<- | I] Hc; [|apply (B1 _ _ I Hc)]. intros Hs. apply (A1 c (B2 _ _ Hc Hs) Hs).
      + intros j c Hc Hs. apply (A3 _ _ (B2 _ _ Hc Hs) Hs). }
  destruct (G (n_pending k) x x') as (M & A & B); [|apply made_refl, C|exact E|].
  - intros i I. apply (a_pend _ C _ _ _ Ek) in I. destruct I as (d & I). unfold place in I. destruct (x_chans x i) as [c|]; [|discriminate].
    exists c. split; [reflexivity|]. destruct (c_conn c); [|discriminate]. inversion I. reflexivity.
  - split; [exact M|]. intros k0 _ _ j c Hc Hs Hn. apply (A j c); auto.
    apply (a_pend _ C _ _ _ Ek). exists (c_sid c). rewrite <- Hs. apply place_i; [apply (B _ _ Hc Hs)|exact Hn].
Qed.
