(** Links: every event keeps the invariants. *)
From Coq Require Import String ZArith List Bool Arith Lia Sorted.
From Verif Require Import Base BaseProofs WireModel TypeModel TextModel CopyModel GroupModel LinkModel LinkSpec LinkProofs2.
Import ListNotations.
Local Open Scope nat_scope.

Lemma inv_start : inv start.
Proof. constructor; cbn; intros; try discriminate; try contradiction; reflexivity. Qed.

(** one channel changes, and its links *)
Lemma inv_chan x y c k k' g : inv x -> x_chans x c = Some k ->
  (forall i, x_links y i = option_map (g i) (x_links x i)) ->
  (forall i l, l_conf (g i l) = l_conf l /\ l_kind (g i l) = l_kind l /\ l_rec (g i l) = l_rec l /\ l_chan (g i l) = l_chan l) ->
  (forall i l, x_links x i = Some l -> l_chan l <> Some c -> lcore (g i l) = lcore l) ->
  (forall j, x_chans y j = if Nat.eqb j c then Some k' else x_chans x j) ->
  x_nc y = x_nc x -> x_keys y = x_keys x -> k_links k' = k_links k -> k_key k' = k_key k ->
  (forall d, d <> c -> In (TRun d) (x_tasks x) -> In (TRun d) (x_tasks y)) ->
  (forall d, d <> c -> taken d (x_out y) = taken d (x_out x)) ->
  (k_changed k' = false -> k_atomic k' = wanted x true (k_links k) /\ k_other k' = wanted x false (k_links k)) ->
  (k_open k' = false -> k_events k' = [] /\ k_notify k' = true /\ taken c (x_out y) = []) ->
  (k_links k <> [] -> (k_events k' <> [] -> k_notify k' = false) /\ (k_notify k' = false -> In (TRun c) (x_tasks y))) ->
  (if k_conn k' then exists r v w, k_roots k' = r ++ [v] /\ latest (taken c (x_out y)) = Some w /\ same v w else latest (taken c (x_out y)) = None) ->
  (forall i l, x_links x i = Some l -> l_chan l = Some c -> k_conn k' = true -> type_change k' (g i l) = g i l) ->
  inv y.
Proof.
  intros I E HL HG HO HC HN HK KL KK HT HX c1 c2 c3 c4 c5.
  assert (L : forall i m, x_links y i = Some m -> exists l, x_links x i = Some l /\ m = g i l).
  { intros i m H. rewrite HL in H. destruct (x_links x i) as [l|]; [|discriminate H]. injection H as <-. exists l. split; reflexivity. }
  assert (L2 : forall i l, x_links x i = Some l -> x_links y i = Some (g i l)) by (intros i l H; rewrite HL, H; reflexivity).
  assert (C : forall d m, x_chans y d = Some m -> (d = c /\ m = k') \/ (d <> c /\ x_chans x d = Some m)).
  { intros d m H. rewrite HC in H. destruct (Nat.eqb_spec d c) as [-> |N]; [left; injection H as <-; split; reflexivity|right; split; assumption]. }
  assert (C2 : forall d, d <> c -> x_chans y d = x_chans x d) by (intros d N; rewrite HC; destruct (Nat.eqb_spec d c); [contradiction|reflexivity]).
  assert (C3 : x_chans y c = Some k') by (rewrite HC, Nat.eqb_refl; reflexivity).
  assert (O : forall i, order_of y i = order_of x i).
  { intros i. unfold order_of. rewrite HL. destruct (x_links x i) as [l|]; [|reflexivity]. cbn. destruct (HG i l) as (-> & _). reflexivity. }
  assert (W : forall a is, wanted y a is = wanted x a is).
  { intros a is. apply somes_ext. intros i _. unfold wants. rewrite HL. destruct (x_links x i) as [l|]; [|reflexivity]. cbn. destruct (HG i l) as (-> & -> & -> & _). reflexivity. }
  constructor.
  - intros i m d H1 H2. destruct (L _ _ H1) as (l & A & ->). destruct (HG i l) as (_ & _ & _ & G). rewrite G in H2.
    destruct (i_att _ I _ _ _ A H2) as (kk & B & D). destruct (Nat.eq_dec d c) as [-> |N].
    + exists k'. split; [exact C3|]. rewrite KL. rewrite E in B. injection B as ->. exact D.
    + exists kk. rewrite C2 by exact N. split; assumption.
  - intros d kk i H1 H2. assert (A : exists l, x_links x i = Some l /\ l_chan l = Some d).
    { destruct (C _ _ H1) as [[-> ->]|[N A]]; [rewrite KL in H2; exact (i_back _ I _ _ _ E H2)|exact (i_back _ I _ _ _ A H2)]. }
    destruct A as (l & A & B). exists (g i l). split; [apply L2, A|]. destruct (HG i l) as (_ & _ & _ & ->). exact B.
  - intros i m H1 H2. destruct (L _ _ H1) as (l & A & ->). destruct (HG i l) as (-> & _ & _ & G). rewrite G in H2. exact (i_name _ I _ _ A H2).
  - intros i m d kk H1 H2 H3. destruct (L _ _ H1) as (l & A & ->). destruct (HG i l) as (-> & _ & _ & G). rewrite G in H2.
    destruct (C _ _ H3) as [[-> ->]|[N B]]; [rewrite KK; exact (i_key _ I _ _ _ _ A H2 E)|exact (i_key _ I _ _ _ _ A H2 B)].
  - intros d kk H. destruct (C _ _ H) as [[-> ->]|[N B]]; [rewrite KL; exact (i_nodup _ I _ _ E)|exact (i_nodup _ I _ _ B)].
  - intros d kk H. assert (G : forall ls, StronglySorted (fun i j => (order_of x i <= order_of x j)%Z) ls -> StronglySorted (fun i j => (order_of y i <= order_of y j)%Z) ls).
    { intros ls. apply sorted_ext. intros a b _ _. rewrite !O. exact (fun h => h). }
    apply G. destruct (C _ _ H) as [[-> ->]|[N B]]; [rewrite KL; exact (i_sort _ I _ _ E)|exact (i_sort _ I _ _ B)].
  - intros d kk H. rewrite HN. destruct (C _ _ H) as [[-> ->]|[N B]]; [exact (i_nc _ I _ _ E)|exact (i_nc _ I _ _ B)].
  - intros d kk H F. rewrite !W. destruct (C _ _ H) as [[-> ->]|[N B]]; [rewrite KL; exact (c1 F)|exact (i_scan _ I _ _ B F)].
  - intros d kk H F. destruct (C _ _ H) as [[-> ->]|[N B]]; [exact (c2 F)|]. rewrite HX by exact N. exact (i_idle _ I _ _ B F).
  - intros d kk H F. destruct (C _ _ H) as [[-> ->]|[N B]]; [rewrite KL in F; exact (c3 F)|]. destruct (i_note _ I _ _ B F) as [P Q]. split; [exact P|]. intros R. apply HT; [exact N|]. exact (Q R).
  - intros d kk H. destruct (C _ _ H) as [[-> ->]|[N B]]; [exact c4|]. rewrite HX by exact N. exact (i_see _ I _ _ B).
  - intros d H. rewrite HN in H. assert (d <> c). { intros ->. pose proof (i_nc _ I _ _ E). lia. } rewrite HX by assumption. exact (i_new _ I _ H).
  - intros i m d kk H1 H2 H3 H4. destruct (L _ _ H1) as (l & A & ->). destruct (HG i l) as (_ & _ & _ & G). rewrite G in H2.
    destruct (C _ _ H3) as [[-> ->]|[N B]]; [exact (c5 _ _ A H2 H4)|]. eapply type_change_same; [apply HO; [exact A|]|exact (i_fields _ I _ _ _ _ A H2 B H4)]. rewrite H2. congruence.
  - intros kk d H. rewrite HK in H. rewrite HN. destruct (i_keys _ I _ _ H) as [A B]. split; [exact A|]. intros ch H1. destruct (C _ _ H1) as [[-> ->]|[N D]]; [rewrite KK; exact (B _ E)|exact (B _ D)].
Qed.
Lemma keep_id (x : ctx) : forall i, x_links x i = option_map (fun l => l) (x_links x i).
Proof. intros i. destruct (x_links x i); reflexivity. Qed.
Ltac onechan I E k' g := apply (inv_chan _ _ _ _ k' g I E); cbn [x_links x_chans x_nc x_keys x_tasks x_out set_chan set_tasks emit k_links k_key k_changed k_atomic k_other k_open k_events k_notify k_conn k_roots k_with_open k_with_events].

Lemma inv_subscribe c x : inv x -> inv (subscribe c x).
Proof.
  intros I. unfold subscribe. destruct (x_chans x c) as [k|] eqn:E; [|exact I].
  assert (T : forall d, taken d (x_out x ++ [OSub c (k_key k)]) = taken d (x_out x)) by (intros d; rewrite taken_app; cbn; rewrite app_nil_r; reflexivity).
  onechan I E (k_with_open true k) (fun (_ : nat) (l : link) => l); try reflexivity.
  - apply keep_id.
  - intros i l. repeat split; reflexivity.
  - intros d _ H. exact H.
  - intros d _. apply T.
  - intros F. exact (i_scan _ I _ _ E F).
  - discriminate.
  - intros F. exact (i_note _ I _ _ E F).
  - rewrite T. exact (i_see _ I _ _ E).
  - intros i l H1 H2 H3. etransitivity; [|exact (i_fields _ I _ _ _ _ H1 H2 E H3)]. apply type_change_roots. reflexivity.
Qed.
Lemma inv_net c e x : inv x -> inv (net c e x).
Proof.
  intros I. unfold net. destruct (x_chans x c) as [k|] eqn:E; [|exact I]. destruct (k_open k) eqn:O; [|exact I]. cbv zeta.
  assert (G : forall b, (k_links k <> [] -> b = false -> In (TRun c) (x_tasks x)) ->
    inv (if b then set_tasks (x_tasks (set_chan c (Some (k_with_events (k_events k ++ [e]) false k)) x) ++ [TRun c]) (set_chan c (Some (k_with_events (k_events k ++ [e]) false k)) x)
         else set_chan c (Some (k_with_events (k_events k ++ [e]) false k)) x)).
  { intros b B. destruct b; onechan I E (k_with_events (k_events k ++ [e]) false k) (fun (_ : nat) (l : link) => l); try reflexivity.
    all: try (apply keep_id).
    all: try (intros i l; repeat split; reflexivity).
    all: try (intros d _ H; exact H).
    all: try (intros d _ H; apply in_app_iff; left; exact H).
    all: try (rewrite O; discriminate).
    all: try (intros F; exact (i_scan _ I _ _ E F)).
    all: try (exact (i_see _ I _ _ E)).
    all: try (intros i l H1 H2 H3; etransitivity; [|exact (i_fields _ I _ _ _ _ H1 H2 E H3)]; apply type_change_roots; reflexivity).
    - intros F. split; [reflexivity|]. intros _. apply in_app_iff. right. left. reflexivity.
    - intros F. split; [reflexivity|]. intros _. apply B; [exact F|reflexivity]. }
  apply G. intros F B. unfold alive in B. destruct (k_links k) as [|a q] eqn:EL; [contradiction|]. cbn in B. rewrite andb_true_r in B.
  apply (i_note _ I _ _ E); [rewrite EL; discriminate|exact B].
Qed.
