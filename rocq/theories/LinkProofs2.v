(** Links: what the parts about writing leave alone, and the invariants. *)
From Coq Require Import String ZArith List Bool Arith Lia Sorted.
From Verif Require Import Base BaseProofs WireModel TypeModel TextModel CopyModel GroupModel LinkModel LinkSpec.
Import ListNotations.
Local Open Scope nat_scope.

Definition lcore (l : link) : link := l_with_put None None (l_with_snap (0, 0)%Z 0%Z [] l).
Definition kcore (k : lchan) : lchan := k_with_put None [] k.
Record core (x y : ctx) : Prop := {
  co_links : forall i, option_map lcore (x_links y i) = option_map lcore (x_links x i);
  co_chans : forall c, option_map kcore (x_chans y c) = option_map kcore (x_chans x c);
  co_keys : x_keys y = x_keys x; co_nc : x_nc y = x_nc x; co_run : x_running y = x_running x;
  co_tasks : forall c, In (TRun c) (x_tasks y) <-> In (TRun c) (x_tasks x);
  co_out : forall c, taken c (x_out y) = taken c (x_out x) }.
Lemma core_refl x : core x x.
Proof. constructor; intros; reflexivity || tauto. Qed.
Lemma core_trans x y z : core x y -> core y z -> core x z.
Proof.
  intros A B. constructor; intros.
  - rewrite (co_links _ _ B). apply (co_links _ _ A).
  - rewrite (co_chans _ _ B). apply (co_chans _ _ A).
  - rewrite (co_keys _ _ B). apply (co_keys _ _ A).
  - rewrite (co_nc _ _ B). apply (co_nc _ _ A).
  - rewrite (co_run _ _ B). apply (co_run _ _ A).
  - rewrite (co_tasks _ _ B). apply (co_tasks _ _ A).
  - rewrite (co_out _ _ B). apply (co_out _ _ A).
Qed.
Lemma taken_app c a b : taken c (a ++ b) = taken c a ++ taken c b.
Proof. induction a as [|o r IH]; [reflexivity|]. cbn. destruct o; cbn; try exact IH. destruct (Nat.eq_dec c0 c); cbn; rewrite IH; reflexivity. Qed.
Lemma core_emit o x : (forall c, taken c o = []) -> core x (emit o x).
Proof. intros N. constructor; cbn; intros; try reflexivity; try tauto. rewrite taken_app, N, app_nil_r. reflexivity. Qed.
Lemma core_set_link i l m x : x_links x i = Some l -> lcore m = lcore l -> core x (set_link i (Some m) x).
Proof. intros E F. constructor; cbn; intros; try reflexivity; try tauto. destruct (Nat.eqb_spec i0 i) as [-> |]; [|reflexivity]. rewrite E. cbn. rewrite F. reflexivity. Qed.
Lemma core_set_chan c k m x : x_chans x c = Some k -> kcore m = kcore k -> core x (set_chan c (Some m) x).
Proof. intros E F. constructor; cbn; intros; try reflexivity; try tauto. destruct (Nat.eqb_spec c0 c) as [-> |]; [|reflexivity]. rewrite E. cbn. rewrite F. reflexivity. Qed.
Lemma core_map_links f is x : (forall l, lcore (f l) = lcore l) -> core x (map_links f is x).
Proof. intros F. constructor; cbn; intros; try reflexivity; try tauto. destruct (existsb (Nat.eqb i) is); [|reflexivity]. destruct (x_links x i); cbn; [rewrite F|]; reflexivity. Qed.
Lemma core_set_rec r d x : core x (set_rec r d x).
Proof. constructor; cbn; intros; try reflexivity; tauto. Qed.
Lemma core_after c x : core x (set_tasks (x_tasks x ++ [TAfter c]) x).
Proof. constructor; cbn; intros; try reflexivity. rewrite in_app_iff. cbn. split; [|tauto]. intros [H|[H|[]]]; [exact H|discriminate]. Qed.

Lemma core_put c f x : core x (put c f x).
Proof.
  unfold put. destruct (x_chans x c) as [k|] eqn:E; [|apply core_refl]. cbv zeta.
  match goal with |- context[map_links ?g ?is x] => assert (M : core x (map_links g is x)) end.
  { apply core_map_links. intros l. destruct (l_scratch l); reflexivity. }
  destruct (f || _).
  - eapply core_trans; [exact M|]. eapply core_trans; [|apply core_emit; reflexivity]. eapply core_set_chan; [cbn; exact E|reflexivity].
  - exact M.
Qed.
Lemma core_put_done c ok x : core x (put_done c ok x).
Proof.
  unfold put_done. destruct (x_chans x c) as [k|] eqn:E; [|apply core_refl]. cbv zeta.
  assert (M : core x (set_chan c (Some (k_with_put None (k_after k) k)) x)) by (eapply core_set_chan; [exact E|reflexivity]).
  assert (N : core x (if ok then put c false (set_chan c (Some (k_with_put None (k_after k) k)) x) else set_chan c (Some (k_with_put None (k_after k) k)) x)).
  { destruct ok; [eapply core_trans; [exact M|apply core_put]|exact M]. }
  destruct (is_nil (k_after k)); [exact N|]. eapply core_trans; [exact N|apply core_after].
Qed.
Lemma core_build c p b x : core x (build c p b x).
Proof.
  unfold build. destruct (x_chans x c) as [k|] eqn:E; [|apply core_refl]. destruct (k_put k) as [op|] eqn:O; [|apply core_refl].
  destruct (po_built op); [apply core_refl|]. destruct (build_items p b (all_links x (k_links k))) as [[items dn] ok]. cbv zeta.
  match goal with |- context[map_links ?g ?is x] => assert (M : core x (map_links g is x)) end.
  { apply core_map_links. intros l. reflexivity. }
  eapply core_trans; [exact M|]. destruct ok; [|apply core_put_done].
  eapply core_trans; [|apply core_emit; reflexivity]. eapply core_set_chan; [cbn; exact E|reflexivity].
Qed.
Lemma core_complete r x : core x (complete r x).
Proof. unfold complete. destruct (r_pact _); [eapply core_trans; [apply core_set_rec|]|]; apply core_emit; reflexivity. Qed.
Lemma core_completes l : forall x, core x (fold_left (fun x r => complete r x) l x).
Proof. induction l as [|r l IH]; intros x; [apply core_refl|]. cbn. eapply core_trans; [apply core_complete|apply IH]. Qed.
Lemma core_after_put c x : core x (after_put c x).
Proof.
  unfold after_put. destruct (x_chans x c) as [k|] eqn:E; [|apply core_refl]. destruct (alive k); [|apply core_refl].
  eapply core_trans; [|apply core_completes]. eapply core_set_chan; [exact E|reflexivity].
Qed.
Lemma chan_of_some i x l c k : chan_of i x = Some (l, c, k) -> x_links x i = Some l /\ l_chan l = Some c /\ x_chans x c = Some k.
Proof.
  unfold chan_of. destruct (x_links x i) as [m|]; [|discriminate]. destruct (l_chan m) as [d|] eqn:F; [|discriminate]. destruct (x_chans x d) eqn:G; [|discriminate].
  intros [= -> -> ->]. repeat split; assumption.
Qed.
Ltac emits := apply core_emit; intros; repeat match goal with |- context[if ?b then _ else _] => destruct b end; reflexivity.
Lemma core_get fp i t n x y : get_value fp i t n x = Some y -> core x y.
Proof.
  unfold get_value. destruct (x_links x i) as [l0|] eqn:L; [|intros [= <-]; apply core_refl].
  destruct (chan_of i x) as [[[l c] k]|] eqn:C; [|discriminate]. destruct (chan_of_some _ _ _ _ _ C) as (A & B & D).
  destruct (negb (valid k)). { intros [= <-]. emits. }
  destruct (read_value fp k l t n) as [[[b m]|r]|]; [| |intros [= <-]; emits].
  - destruct (read_snap fp k l) as [[[z e] s]|r].
    + intros [= <-]. eapply core_trans; [|emits]. eapply (core_set_link i l); [exact A|reflexivity].
    + destruct r; try discriminate; intros [= <-]; emits.
  - destruct r; try discriminate; intros [= <-]; emits.
Qed.
Lemma core_put_value i d w x y : put_value i d w x = Some y -> core x y.
Proof.
  unfold put_value. destruct (x_links x i) as [l0|] eqn:L; [|intros [= <-]; apply core_refl].
  destruct (chan_of i x) as [[[l c] k]|] eqn:C; [|discriminate]. destruct (chan_of_some _ _ _ _ _ C) as (A & B & D).
  destruct (negb _ && negb (valid k)). { intros [= <-]. emits. }
  assert (G : forall d a, core x (emit [OPut i SOk]
    (let x1 := set_link i (Some (l_with_put (Some d) (l_queue l) l)) (set_chan c (Some (k_with_put (k_put k) a k)) x) in
     let x2 := if w then set_rec (l_rec l) {| r_pact := true; r_passive := r_passive (x_recs x (l_rec l)) |} x1 else x1 in
     if cf_defer (l_conf l) then x2 else put c false x2))).
  { intros d0 a. cbv zeta. eapply core_trans; [|emits].
    assert (M : core x (set_link i (Some (l_with_put (Some d0) (l_queue l) l)) (set_chan c (Some (k_with_put (k_put k) a k)) x))).
    { eapply core_trans; [|eapply (core_set_link i l); [exact A|reflexivity]]. eapply (core_set_chan c k); [exact D|reflexivity]. }
    assert (M2 : core x (if w then set_rec (l_rec l) {| r_pact := true; r_passive := r_passive (x_recs x (l_rec l)) |} (set_link i (Some (l_with_put (Some d0) (l_queue l) l)) (set_chan c (Some (k_with_put (k_put k) a k)) x))
       else set_link i (Some (l_with_put (Some d0) (l_queue l) l)) (set_chan c (Some (k_with_put (k_put k) a k)) x))).
    { destruct w; [eapply core_trans; [exact M|apply core_set_rec]|exact M]. }
    destruct (cf_defer (l_conf l)); [exact M2|]. eapply core_trans; [exact M2|apply core_put]. }
  destruct d as [[] z|s]; intros [= <-]; try (apply G); emits.
Qed.
Lemma core_forward i x y : forward i x = Some y -> core x y.
Proof.
  unfold forward. destruct (x_links x i) as [l0|] eqn:L; [|intros [= <-]; apply core_refl].
  destruct (chan_of i x) as [[[l c] k]|] eqn:C; [|discriminate].
  destruct (negb _ && negb (valid k)); intros [= <-]; [emits|apply core_put].
Qed.
Lemma core_done c ok x : core x (done c ok x).
Proof. unfold done. destruct (x_chans x c) as [k|]; [|apply core_refl]. destruct (k_put k); [|apply core_refl]. destruct (_ && _); [apply core_refl|apply core_put_done]. Qed.

(** ** Invariants *)

Definition same (a b : img) : Prop := forall p, a p = b p.
Record inv (x : ctx) : Prop := {
  i_att : forall i l c, x_links x i = Some l -> l_chan l = Some c -> exists k, x_chans x c = Some k /\ In i (k_links k);
  i_back : forall c k i, x_chans x c = Some k -> In i (k_links k) -> exists l, x_links x i = Some l /\ l_chan l = Some c;
  i_name : forall i l, x_links x i = Some l -> l_chan l = None -> cf_name (l_conf l) = [];
  i_key : forall i l c k, x_links x i = Some l -> l_chan l = Some c -> x_chans x c = Some k -> k_key k = request (l_conf l) /\ cf_name (l_conf l) <> [];
  i_nodup : forall c k, x_chans x c = Some k -> NoDup (k_links k);
  i_sort : forall c k, x_chans x c = Some k -> StronglySorted (fun i j => (order_of x i <= order_of x j)%Z) (k_links k);
  i_nc : forall c k, x_chans x c = Some k -> c < x_nc x;
  i_scan : forall c k, x_chans x c = Some k -> k_changed k = false -> k_atomic k = wanted x true (k_links k) /\ k_other k = wanted x false (k_links k);
  i_idle : forall c k, x_chans x c = Some k -> k_open k = false -> k_events k = [] /\ k_notify k = true /\ taken c (x_out x) = [];
  i_note : forall c k, x_chans x c = Some k -> k_links k <> [] -> (k_events k <> [] -> k_notify k = false) /\ (k_notify k = false -> In (TRun c) (x_tasks x));
  i_see : forall c k, x_chans x c = Some k ->
    if k_conn k then exists r v w, k_roots k = r ++ [v] /\ latest (taken c (x_out x)) = Some w /\ same v w else latest (taken c (x_out x)) = None;
  i_new : forall c, x_nc x <= c -> taken c (x_out x) = [];
  i_fields : forall i l c k, x_links x i = Some l -> l_chan l = Some c -> x_chans x c = Some k -> k_conn k = true -> type_change k l = l;
  i_keys : forall k c, In (k, c) (x_keys x) -> c < x_nc x /\ forall ch, x_chans x c = Some ch -> k_key ch = k }.

Lemma some_inj {A} (a b : A) : Some a = Some b -> a = b.
Proof. intros H. injection H as H. exact H. Qed.
Lemma lcore_inj a b : lcore a = lcore b ->
  l_conf a = l_conf b /\ l_kind a = l_kind b /\ l_rec a = l_rec b /\ l_chan a = l_chan b.
Proof. destruct a, b. unfold lcore, l_with_put, l_with_snap. cbn. intros [= -> -> -> -> -> -> -> -> -> ->]. repeat split; reflexivity. Qed.
Lemma kcore_inj a b : kcore a = kcore b ->
  k_key a = k_key b /\ k_open a = k_open b /\ k_events a = k_events b /\ k_notify a = k_notify b /\ k_roots a = k_roots b /\ k_conn a = k_conn b /\
  k_links a = k_links b /\ k_changed a = k_changed b /\ k_atomic a = k_atomic b /\ k_other a = k_other b.
Proof. destruct a, b. unfold kcore, k_with_put. cbn. intros [= -> -> -> -> -> -> -> -> -> ->]. repeat split; reflexivity. Qed.
Lemma core_link x y i l : core x y -> x_links y i = Some l -> exists m, x_links x i = Some m /\ lcore l = lcore m.
Proof. intros C E. pose proof (co_links _ _ C i) as H. rewrite E in H. destruct (x_links x i) as [m|]; [|discriminate H]. apply some_inj in H. exists m. split; [reflexivity|exact H]. Qed.
Lemma core_chan x y i l : core x y -> x_chans y i = Some l -> exists m, x_chans x i = Some m /\ kcore l = kcore m.
Proof. intros C E. pose proof (co_chans _ _ C i) as H. rewrite E in H. destruct (x_chans x i) as [m|]; [|discriminate H]. apply some_inj in H. exists m. split; [reflexivity|exact H]. Qed.
Lemma core_sym x y : core x y -> core y x.
Proof. intros C. constructor; intros; symmetry; apply C. Qed.

Lemma core_order x y i : core x y -> order_of y i = order_of x i.
Proof.
  intros C. unfold order_of. pose proof (co_links _ _ C i) as H. destruct (x_links y i) as [l|], (x_links x i) as [m|]; try discriminate H; [|reflexivity].
  apply some_inj in H. destruct (lcore_inj _ _ H) as (-> & _). reflexivity.
Qed.
Lemma core_wants x y a i : core x y -> wants y a i = wants x a i.
Proof.
  intros C. unfold wants. pose proof (co_links _ _ C i) as H. destruct (x_links y i) as [l|], (x_links x i) as [m|]; try discriminate H; [|reflexivity].
  apply some_inj in H. destruct (lcore_inj _ _ H) as (-> & -> & -> & _). reflexivity.
Qed.
Lemma somes_ext {A B} (f g : A -> option B) l : (forall a, In a l -> f a = g a) -> somes f l = somes g l.
Proof. induction l as [|a r IH]; intros H; [reflexivity|]. cbn. rewrite H by (left; reflexivity). rewrite IH by (intros; apply H; right; assumption). reflexivity. Qed.
Lemma core_wanted x y a is : core x y -> wanted y a is = wanted x a is.
Proof. intros C. apply somes_ext. intros i _. apply core_wants. exact C. Qed.

Lemma type_change_core k l : lcore (type_change k l) = type_change k (lcore l).
Proof. destruct l. unfold type_change. cbn. destruct (_ : option node) as [n|]; [|reflexivity]. destruct (nd_code n =? tc_Struct)%Z; reflexivity. Qed.
Lemma type_change_roots k k' l : k_roots k = k_roots k' -> type_change k l = type_change k' l.
Proof. intros E. unfold type_change. rewrite E. reflexivity. Qed.
Lemma type_change_put k l : l_scratch (type_change k l) = l_scratch l /\ l_queue (type_change k l) = l_queue l /\ s_time (type_change k l) = s_time l /\
  s_sevr (type_change k l) = s_sevr l /\ s_msg (type_change k l) = s_msg l.
Proof. unfold type_change. cbv zeta. destruct (_ : option node) as [n|]; [destruct (nd_code n =? tc_Struct)%Z|]; repeat split; reflexivity. Qed.
Lemma lcore_back a b : lcore a = lcore b -> l_scratch a = l_scratch b -> l_queue a = l_queue b -> s_time a = s_time b -> s_sevr a = s_sevr b -> s_msg a = s_msg b -> a = b.
Proof. destruct a, b. unfold lcore, l_with_put, l_with_snap. cbn. intros [= -> -> -> -> -> -> -> -> -> ->] -> -> -> -> ->. reflexivity. Qed.
Lemma type_change_same k l m : lcore l = lcore m -> type_change k m = m -> type_change k l = l.
Proof.
  intros E F. destruct (type_change_put k l) as (A & B & C & D & G). apply lcore_back; try assumption.
  rewrite type_change_core, E, <- type_change_core, F. reflexivity.
Qed.
Lemma sorted_ext {A} (R S : A -> A -> Prop) l : (forall a b, In a l -> In b l -> R a b -> S a b) -> StronglySorted R l -> StronglySorted S l.
Proof.
  intros H I. induction I as [|a l I IH F]; constructor.
  - apply IH. intros; apply H; [right; assumption|right; assumption|assumption].
  - rewrite Forall_forall in *. intros b B. apply H; [left; reflexivity|right; exact B|apply F, B].
Qed.
Lemma inv_core x y : core x y -> inv x -> inv y.
Proof.
  intros C I. constructor.
  - intros i l c E F. destruct (core_link _ _ _ _ C E) as (m & M & Q). destruct (lcore_inj _ _ Q) as (_ & _ & _ & H). rewrite H in F.
    destruct (i_att _ I _ _ _ M F) as (k & K & L). pose proof (co_chans _ _ C c) as Z. rewrite K in Z. destruct (x_chans y c) as [k'|]; [|discriminate Z]. apply some_inj in Z.
    exists k'. split; [reflexivity|]. destruct (kcore_inj _ _ Z) as (_ & _ & _ & _ & _ & _ & -> & _). exact L.
  - intros c k i E F. destruct (core_chan _ _ _ _ C E) as (m & M & Q). destruct (kcore_inj _ _ Q) as (_ & _ & _ & _ & _ & _ & H & _). rewrite H in F.
    destruct (i_back _ I _ _ _ M F) as (l & L & K). pose proof (co_links _ _ C i) as Z. rewrite L in Z. destruct (x_links y i) as [l'|]; [|discriminate Z]. apply some_inj in Z.
    exists l'. split; [reflexivity|]. destruct (lcore_inj _ _ Z) as (_ & _ & _ & ->). exact K.
  - intros i l E F. destruct (core_link _ _ _ _ C E) as (m & M & Q). destruct (lcore_inj _ _ Q) as (-> & _ & _ & H). rewrite H in F. exact (i_name _ I _ _ M F).
  - intros i l c k E F G. destruct (core_link _ _ _ _ C E) as (m & M & Q). destruct (lcore_inj _ _ Q) as (-> & _ & _ & H). rewrite H in F.
    destruct (core_chan _ _ _ _ C G) as (j & J & Q2). destruct (kcore_inj _ _ Q2) as (-> & _). exact (i_key _ I _ _ _ _ M F J).
  - intros c k E. destruct (core_chan _ _ _ _ C E) as (m & M & Q). destruct (kcore_inj _ _ Q) as (_ & _ & _ & _ & _ & _ & -> & _). exact (i_nodup _ I _ _ M).
  - intros c k E. destruct (core_chan _ _ _ _ C E) as (m & M & Q). destruct (kcore_inj _ _ Q) as (_ & _ & _ & _ & _ & _ & -> & _).
    eapply sorted_ext; [|exact (i_sort _ I _ _ M)]. intros a b _ _ H. cbn in *. rewrite !(core_order _ _ _ C). exact H.
  - intros c k E. destruct (core_chan _ _ _ _ C E) as (m & M & Q). rewrite (co_nc _ _ C). exact (i_nc _ I _ _ M).
  - intros c k E F. destruct (core_chan _ _ _ _ C E) as (m & M & Q). destruct (kcore_inj _ _ Q) as (_ & _ & _ & _ & _ & _ & -> & H & -> & ->). rewrite H in F.
    rewrite !(core_wanted _ _ _ _ C). exact (i_scan _ I _ _ M F).
  - intros c k E F. destruct (core_chan _ _ _ _ C E) as (m & M & Q). destruct (kcore_inj _ _ Q) as (_ & H & -> & -> & _). rewrite H in F. rewrite (co_out _ _ C). exact (i_idle _ I _ _ M F).
  - intros c k E F. destruct (core_chan _ _ _ _ C E) as (m & M & Q). destruct (kcore_inj _ _ Q) as (_ & _ & -> & -> & _ & _ & H & _). rewrite H in F. rewrite (co_tasks _ _ C). exact (i_note _ I _ _ M F).
  - intros c k E. destruct (core_chan _ _ _ _ C E) as (m & M & Q). destruct (kcore_inj _ _ Q) as (_ & _ & _ & _ & -> & -> & _). rewrite (co_out _ _ C). exact (i_see _ I _ _ M).
  - intros c E. rewrite (co_nc _ _ C) in E. rewrite (co_out _ _ C). exact (i_new _ I _ E).
  - intros i l c k E F G H. destruct (core_link _ _ _ _ C E) as (m & M & Q). destruct (lcore_inj _ _ Q) as (_ & _ & _ & Q3). rewrite Q3 in F.
    destruct (core_chan _ _ _ _ C G) as (j & J & Q2). destruct (kcore_inj _ _ Q2) as (_ & _ & _ & _ & Q4 & Q5 & _). rewrite Q5 in H.
    eapply type_change_same; [exact Q|]. rewrite (type_change_roots k j) by exact Q4. exact (i_fields _ I _ _ _ _ M F J H).
  - intros k c. rewrite (co_keys _ _ C), (co_nc _ _ C). intros H. destruct (i_keys _ I _ _ H) as [A B]. split; [exact A|]. intros ch E.
    destruct (core_chan _ _ _ _ C E) as (j & J & Q2). destruct (kcore_inj _ _ Q2) as (-> & _). exact (B _ J).
Qed.
