(** Links: the end of a PUT, and sharing. *)
From Coq Require Import String ZArith List Bool Arith Lia Sorted.
From Verif Require Import Base BaseProofs WireModel TypeModel TextModel ValueModel CopyModel GroupModel LinkModel LinkSpec LinkProofs2 LinkProofs3 LinkProofs4 LinkProofs5 LinkProofs6 LinkProofs7 LinkProofs8.
Import ListNotations.

(** ** Records which wait are each there once *)
Definition once (x : ctx) : Prop := forall c k, x_chans x c = Some k -> NoDup (k_after k).
Lemma once_set c k x : once x -> NoDup (k_after k) -> once (set_chan c (Some k) x).
Proof. intros O N d m H. cbn in H. destruct (Nat.eqb d c); [injection H as <-; exact N|exact (O d m H)]. Qed.
Lemma once_same x y : once x -> x_chans y = x_chans x -> once y.
Proof. intros O E c k H. rewrite E in H. exact (O c k H). Qed.
Lemma once_put c f x : once x -> once (put c f x).
Proof.
  intros O. unfold put. destruct (x_chans x c) as [k|] eqn:K; [|exact O]. cbv zeta. destruct (f || _); [|exact O]. intros d m H. cbn in H. destruct (Nat.eqb d c); [injection H as <-; exact (O c k K)|exact (O d m H)].
Qed.
Lemma once_put_done c ok x : once x -> once (put_done c ok x).
Proof.
  intros O. unfold put_done. destruct (x_chans x c) as [k|] eqn:K; [|exact O]. cbv zeta.
  assert (A : once (set_chan c (Some (k_with_put None (k_after k) k)) x)) by (apply once_set; [exact O|exact (O c k K)]).
  assert (B : once (if ok then put c false (set_chan c (Some (k_with_put None (k_after k) k)) x) else set_chan c (Some (k_with_put None (k_after k) k)) x)) by (destruct ok; [apply once_put|]; exact A).
  destruct (is_nil (k_after k)); exact B.
Qed.
Lemma once_subscribe c x : once x -> once (subscribe c x).
Proof. intros O. unfold subscribe. destruct (x_chans x c) as [k|] eqn:K; [|exact O]. apply (once_same (set_chan c (Some (k_with_open true k)) x)); [|reflexivity]. apply once_set; [exact O|exact (O c k K)]. Qed.
Lemma once_step fp x e y : inv x -> once x -> step fp x e = Some y -> once y.
Proof.
  intros IV O H. destruct e as [j cf kd r t|j|c'| |c' ev| |j t n|j d' w|j|c' w bad|c' ok|r rd]; cbn [step] in H; try (injection H as <-).
  - unfold open_link. destruct (x_links x j) as [lj|]; [exact O|]. destruct (cf_local cf && negb t); [exact O|]. destruct (is_nil (cf_name cf)); [exact O|]. cbv zeta.
    set (pr := match find_chan (request cf) x with Some c0 => (x, c0) | None => _ end).
    assert (Q : once (fst pr)). { unfold pr. destruct (find_chan (request cf) x); [exact O|]. cbn [fst].
      assert (Q : once (set_keys (if existsb (fun p => key_eqb (request cf) (fst p)) (x_keys x) then x_keys x else x_keys x ++ [(request cf, x_nc x)]) (S (x_nc x)) (set_chan (x_nc x) (Some (new_chan (request cf))) x))).
      { apply (once_same (set_chan (x_nc x) (Some (new_chan (request cf))) x)); [|reflexivity]. apply once_set; [exact O|constructor]. }
      destruct (x_running x); [apply once_subscribe|]; exact Q. }
    destruct pr as [x1 c1]. cbn [fst] in Q. destruct (x_chans x1 c1) as [ch|] eqn:CH; [|exact Q]. set (l' := if k_conn ch then type_change ch _ else _).
    assert (Q2 : once (set_chan c1 (Some (k_with_links (place x1 (cf_order cf) j (k_links ch)) true ch)) x1)) by (apply once_set; [exact Q|exact (Q c1 ch CH)]).
    destruct (if k_conn ch then scans l' else None); exact Q2.
  - unfold remove_link. destruct (x_links x j) as [lj|]; [|exact O]. cbv zeta. destruct (l_chan lj) as [c1|]; [|exact O]. destruct (x_chans x c1) as [k1|] eqn:K1; [|exact O].
    apply once_set; [exact O|exact (O c1 k1 K1)].
  - unfold free_chan. destruct (x_chans x c') as [k|]; [|exact O]. destruct (alive k); [exact O|]. intros d m M. cbn in M. destruct (Nat.eqb d c'); [discriminate|exact (O d m M)].
  - unfold init_links. destruct (x_running x); [exact O|]. assert (O' : once (set_running x)) by exact O. revert O'. generalize (set_running x). induction (x_keys x) as [|p ks IH]; intros z O'; [exact O'|]. cbn [fold_left]. apply IH. destruct (x_chans z (snd p)) as [k|]; [|exact O']. destruct (alive k); [apply once_subscribe, O'|exact O'].
  - unfold net. destruct (x_chans x c') as [k|] eqn:K; [|exact O]. destruct (k_open k); [|exact O]. cbv zeta. assert (Q : once (set_chan c' (Some (k_with_events (k_events k ++ [ev]) false k)) x)) by (apply once_set; [exact O|exact (O c' k K)]). destruct (_ && _); exact Q.
  - unfold work. destruct (x_tasks x) as [|[t|t] r] eqn:T; [exact O| |].
    + destruct (x_chans x t) as [k|] eqn:K; [|unfold run_chan; cbn; rewrite K; exact O]. destruct (alive k) eqn:AL; [|unfold run_chan; cbn; rewrite K, AL; exact O].
      destruct (k_events k) as [|e es] eqn:EV; [unfold run_chan; cbn; rewrite K, AL, EV; cbn [negb]; apply (once_set t); [exact O|exact (O t k K)]|].
      assert (NE : k_links k <> []) by (unfold alive in AL; destruct (k_links k); discriminate). rewrite (run_chan_tasks t x k e es r K NE EV). pose proof (run_chan_event t x k e es IV K NE EV) as H. cbv zeta in H. destruct H as (A1 & _).
      intros d m M. cbn [set_tasks x_chans] in M. rewrite A1 in M. destruct (Nat.eqb_spec d t) as [-> |N]; [|exact (O d m M)]. injection M as <-. cbn. unfold took. pose proof (O t k K) as Q. destruct e as [u|s ns|]; [destruct (k_conn _)| |]; exact Q.
    + unfold after_put. cbn [set_tasks x_chans]. destruct (x_chans x t) as [k|]; [|exact O]. destruct (alive k); [|exact O].
      match goal with |- once (fold_left _ ?rs ?z) => destruct (completes_same rs z) as [_ B]; apply (once_same z); [|exact B] end. apply once_set; [exact O|constructor].
  - assert (E : x_chans y = x_chans x). { unfold get_value in H. destruct (x_links x j); [|injection H as <-; reflexivity]. destruct (chan_of j x) as [[[l1 c1] k1]|]; [|discriminate]. cbv zeta in H. destruct (valid k1); cbn [negb] in H; [|injection H as <-; reflexivity].
      destruct (read_value fp k1 l1 t n) as [[[b m]|rr]|]; [|destruct rr; try discriminate; injection H as <-; reflexivity|injection H as <-; reflexivity]. destruct (read_snap fp k1 l1) as [[[z e] s]|rr]; [|destruct rr; try discriminate; injection H as <-; reflexivity]. injection H as <-. reflexivity. }
    exact (once_same x y O E).
  - unfold put_value in H. destruct (x_links x j) as [lj|] eqn:LJ; [|injection H as <-; exact O]. destruct (chan_of j x) as [[[l1 c1] k1]|] eqn:CO; [|discriminate].
    destruct (chan_of_some _ _ _ _ _ CO) as (A1 & A2 & A3). destruct (negb _ && negb (valid k1)). { injection H as <-. exact O. }
    set (a := if w then (if existsb (Nat.eqb (l_rec l1)) (k_after k1) then k_after k1 else k_after k1 ++ [l_rec l1]) else k_after k1). assert (NA : NoDup a). { unfold a. destruct w; [|exact (O c1 k1 A3)]. destruct (existsb _ _) eqn:X; [exact (O c1 k1 A3)|]. 
      assert (NI : ~ In (l_rec l1) (k_after k1)) by (rewrite <- existsb_in; congruence). clear -NI O A3. specialize (O c1 k1 A3). induction (k_after k1) as [|b q IH]; cbn; [constructor; [intros []|constructor]|]. inversion O; subst. constructor; [rewrite in_app_iff; cbn; intros [Q|[Q|[]]]; [contradiction|apply NI; left; congruence]|apply IH; [assumption|intros Q; apply NI; right; exact Q]]. }
    assert (G : forall d, once (emit [OPut j SOk]
    (let x1 := set_link j (Some (l_with_put (Some d) (l_queue l1) l1)) (set_chan c1 (Some (k_with_put (k_put k1) a k1)) x) in
     let x2 := if w then set_rec (l_rec l1) {| r_pact := true; r_passive := r_passive (x_recs x (l_rec l1)) |} x1 else x1 in
     if cf_defer (l_conf l1) then x2 else put c1 false x2))).
    { intros d. cbv zeta. assert (Q : once (set_chan c1 (Some (k_with_put (k_put k1) a k1)) x)) by (apply once_set; [exact O|exact NA]).
      assert (Q2 : once (if w then set_rec (l_rec l1) {| r_pact := true; r_passive := r_passive (x_recs x (l_rec l1)) |} (set_link j (Some (l_with_put (Some d) (l_queue l1) l1)) (set_chan c1 (Some (k_with_put (k_put k1) a k1)) x)) else set_link j (Some (l_with_put (Some d) (l_queue l1) l1)) (set_chan c1 (Some (k_with_put (k_put k1) a k1)) x))) by (destruct w; exact Q).
      destruct (cf_defer _); [exact Q2|]. intros c k. apply (once_put c1 false _ Q2). }
    destruct d' as [[] z|s]; injection H as <-; try exact O; exact (G _).
  - unfold forward in H. destruct (x_links x j) as [lj|]; [|injection H as <-; exact O]. destruct (chan_of j x) as [[[l1 c1] k1]|]; [|discriminate].
    destruct (negb _ && negb (valid k1)); injection H as <-; [exact O|apply once_put, O].
  - unfold build. destruct (x_chans x c') as [k|] eqn:K; [|exact O]. destruct (k_put k) as [op|]; [|exact O]. destruct (po_built op); [exact O|]. destruct (build_items _ _ _) as [[a b] ok]. cbv zeta. destruct ok; [|apply once_put_done; exact O].
    apply (once_same (set_chan c' (Some (k_with_put (Some {| po_built := true; po_block := po_block op; po_mode := po_mode op |}) (k_after k) k)) x)); [|reflexivity]. apply once_set; [exact O|exact (O c' k K)].
  - unfold done. destruct (x_chans x c') as [k1|]; [|exact O]. destruct (k_put k1); [|exact O]. destruct (_ && _); [exact O|apply once_put_done, O].
  - exact O.
Qed.
Lemma once_reached fp h x : reached fp h x -> once x.
Proof.
  unfold reached. assert (G : forall x0, inv x0 -> once x0 -> forall h y, run fp x0 h = Some y -> once y).
  { intros x0 IV O g. revert x0 IV O. induction g as [|e r IH]; intros x0 IV O y H; cbn in H; [injection H as <-; exact O|]. destruct (step fp x0 e) as [z|] eqn:Z; [|discriminate]. exact (IH z (inv_step _ _ _ _ IV Z) (once_step _ _ _ _ IV O Z) y H). }
  apply (G start inv_start). intros c k H. discriminate H.
Qed.

(** ** The end of a PUT *)
Definition ended (x : ctx) (r : nat) : list out := [OLock [r]; if r_pact (x_recs x r) then OComplete r else ONotActive r; OUnlock [r]].
Lemma completes_out rs : forall x, NoDup rs -> x_out (fold_left (fun x r => complete r x) rs x) = x_out x ++ concat (map (ended x) rs) /\
  (forall r, In r rs -> r_pact (x_recs (fold_left (fun x r => complete r x) rs x) r) = false) /\ (forall r, ~ In r rs -> x_recs (fold_left (fun x r => complete r x) rs x) r = x_recs x r).
Proof.
  induction rs as [|r rs IH]; intros x N; cbn; [rewrite app_nil_r; split; [reflexivity|]; split; [contradiction|reflexivity]|]. inversion N as [|? ? N1 N2]; subst.
  destruct (IH (complete r x) N2) as (A & B & C).
  assert (E : x_out (complete r x) = x_out x ++ ended x r) by (unfold complete, ended; destruct (r_pact _); reflexivity).
  assert (R : forall q, q <> r -> x_recs (complete r x) q = x_recs x q). { intros q Q. unfold complete. destruct (r_pact _); cbn; [destruct (Nat.eqb_spec q r); [contradiction|reflexivity]|reflexivity]. }
  assert (R0 : r_pact (x_recs (complete r x) r) = false). { unfold complete. destruct (r_pact (x_recs x r)) eqn:P; cbn; [rewrite Nat.eqb_refl; reflexivity|exact P]. }
  split; [rewrite A, E, <- app_assoc; change (x_out x ++ ended x r ++ concat (map (ended (complete r x)) rs) = x_out x ++ ended x r ++ concat (map (ended x) rs)); do 3 f_equal; apply map_ext_in; intros q Q; unfold ended; rewrite R by (intros ->; contradiction); reflexivity|].
  split; [intros q [<- |Q]; [rewrite C by exact N1; exact R0|exact (B q Q)]|]. intros q Q. rewrite C by tauto. apply R. intros ->. tauto.
Qed.
Lemma after_turn fp h x c ts i : reached fp h x -> x_tasks x = TAfter c :: ts -> attached x i c ->
  exists y, step fp x EWork = Some y /\ x_out y = x_out x ++ concat (map (ended x) (waiting x c)) /\ waiting y c = [] /\ (forall r, In r (waiting x c) -> r_pact (x_recs y r) = false) /\ x_tasks y = ts.
Proof.
  intros R T (l & L & C). pose proof (inv_reached _ _ _ R) as IV. destruct (i_att _ IV _ _ _ L C) as (k & K & I).
  exists (work x). split; [reflexivity|]. unfold work. rewrite T. unfold after_put. cbn [set_tasks x_chans]. rewrite K. unfold alive. assert (NE : is_nil (k_links k) = false) by (destruct (k_links k); [contradiction|reflexivity]). rewrite NE. cbn [negb].
  assert (WX : waiting x c = k_after k) by (unfold waiting; rewrite K; reflexivity). rewrite WX. set (z := set_chan c _ _). destruct (completes_out (k_after k) z (once_reached _ _ _ R c k K)) as (A & B & D).
  split; [rewrite A; reflexivity|]. split; [unfold waiting; rewrite (proj2 (completes_same (k_after k) z)); cbn; rewrite Nat.eqb_refl; reflexivity|]. split; [exact B|].
  assert (G : forall rs z, x_tasks (fold_left (fun x r => complete r x) rs z) = x_tasks z). { induction rs as [|a rs IH]; intros z0; [reflexivity|]. cbn. rewrite IH. unfold complete. destruct (r_pact _); reflexivity. }
  rewrite G. reflexivity.
Qed.
Lemma work_keeps x i c l : inv x -> x_links x i = Some l -> l_chan l = Some c -> (forall ts, x_tasks x <> TAfter c :: ts) ->
  attached (work x) i c /\ waiting (work x) c = waiting x c /\ exists o, x_out (work x) = x_out x ++ o.
Proof.
  intros IV L C NT. destruct (i_att _ IV _ _ _ L C) as (k0 & K0 & I0). unfold work. destruct (x_tasks x) as [|[t|t] r] eqn:T.
  - split; [exists l; tauto|]. split; [reflexivity|]. exists []. rewrite app_nil_r. reflexivity.
  - destruct (x_chans x t) as [k|] eqn:K; [|unfold run_chan; cbn; rewrite K; split; [exists l; tauto|]; split; [reflexivity|]; exists []; rewrite app_nil_r; reflexivity].
    destruct (alive k) eqn:AL; [|unfold run_chan; cbn; rewrite K, AL; split; [exists l; tauto|]; split; [reflexivity|]; exists []; rewrite app_nil_r; reflexivity].
    destruct (k_events k) as [|e es] eqn:EV.
    { unfold run_chan. cbn. rewrite K, AL, EV. cbn [negb]. split; [exists l; tauto|]. split; [|exists []; rewrite app_nil_r; reflexivity]. unfold waiting. cbn. destruct (Nat.eqb_spec c t) as [-> |N]; [rewrite K; reflexivity|reflexivity]. }
    assert (NE : k_links k <> []) by (unfold alive in AL; destruct (k_links k); discriminate). rewrite (run_chan_tasks t x k e es r K NE EV). pose proof (run_chan_event t x k e es IV K NE EV) as H. cbv zeta in H. destruct H as (A1 & A2 & _ & _ & _ & A6 & _).
    split; [exists (retyped e (k_with_events es (k_notify k) k) i l); split; [cbn [set_tasks x_links]; rewrite A2, L; reflexivity|destruct (retyped_conf e (k_with_events es (k_notify k) k) i l) as (_ & _ & _ & ->); exact C]|].
    split; [|cbn [set_tasks x_out]; rewrite A6; eexists; reflexivity]. unfold waiting. cbn [set_tasks x_chans]. rewrite A1. destruct (Nat.eqb_spec c t) as [-> |N]; [|reflexivity]. rewrite K. cbn. unfold took. destruct e as [u|s ns|]; [destruct (k_conn _)| |]; reflexivity.
  - unfold after_put. cbn [set_tasks x_chans]. assert (N : t <> c) by (intros ->; exact (NT r eq_refl)). destruct (x_chans x t) as [k|] eqn:K; [|split; [exists l; tauto|]; split; [reflexivity|]; exists []; rewrite app_nil_r; reflexivity].
    destruct (alive k); [|split; [exists l; tauto|]; split; [reflexivity|]; exists []; rewrite app_nil_r; reflexivity]. set (z := set_chan t _ _). destruct (completes_same (k_after k) z) as [A B].
    split; [exists l; rewrite A; tauto|]. split; [unfold waiting; rewrite B; cbn; destruct (Nat.eqb_spec c t); [congruence|reflexivity]|].
    assert (G : forall rs z, exists o, x_out (fold_left (fun x r => complete r x) rs z) = x_out z ++ o).
    { induction rs as [|a rs IH]; intros z0; [exists []; rewrite app_nil_r; reflexivity|]. cbn. destruct (IH (complete a z0)) as (o & ->). unfold complete. destruct (r_pact _); cbn; rewrite <- app_assoc; eexists; reflexivity. }
    exact (G (k_after k) z).
Qed.
Lemma work_rest x t ts : inv x -> x_tasks x = t :: ts -> exists more, x_tasks (work x) = ts ++ more.
Proof.
  intros IV T. destruct (work_cases x IV) as [[E _]|[(t' & r & E & E2 & _)|(c & r & k & e & es & E & _ & _ & _ & W)]]; [congruence| |].
  - assert (TR : ts = r) by congruence; rewrite TR in *. exists []. rewrite app_nil_r. exact E2.
  - assert (TR : ts = r) by congruence; rewrite TR in *. cbv zeta in W. destruct W as (_ & _ & _ & _ & W & _). exists [TRun c]. exact W.
Qed.
Lemma run_app fp a b : forall x, run fp x (a ++ b) = match run fp x a with Some y => run fp y b | None => None end.
Proof. induction a as [|e a IH]; intros x; [reflexivity|]. cbn. destruct (step fp x e); [apply IH|reflexivity]. Qed.
Lemma after_all fp c i pre : forall h x post, reached fp h x -> attached x i c -> x_tasks x = pre ++ TAfter c :: post ->
  exists m y o, run fp x (repeat EWork m) = Some y /\ waiting y c = [] /\ x_out y = x_out x ++ o /\ forall r, In r (waiting x c) -> In (OComplete r) o \/ In (ONotActive r) o.
Proof.
  assert (HD : forall h x post, reached fp h x -> attached x i c -> x_tasks x = TAfter c :: post ->
    exists m y o, run fp x (repeat EWork m) = Some y /\ waiting y c = [] /\ x_out y = x_out x ++ o /\ forall r, In r (waiting x c) -> In (OComplete r) o \/ In (ONotActive r) o).
  { intros h x post R A T. destruct (after_turn fp h x c post i R T A) as (y & S & O & W & _). exists 1%nat, y, (concat (map (ended x) (waiting x c))). cbn [repeat run]. rewrite S. split; [reflexivity|]. split; [exact W|]. split; [exact O|].
    intros r I. assert (E : In (if r_pact (x_recs x r) then OComplete r else ONotActive r) (concat (map (ended x) (waiting x c)))).
    { apply in_concat. exists (ended x r). split; [apply in_map, I|]. right. left. reflexivity. } destruct (r_pact _); tauto. }
  induction pre as [|t pre IH]; intros h x post R A T; [exact (HD h x post R A T)|].
  cbn in T. pose proof (inv_reached _ _ _ R) as IV. assert (D : (exists ts, x_tasks x = TAfter c :: ts) \/ forall ts, x_tasks x <> TAfter c :: ts).
  { rewrite T. destruct t as [d|d]; [right; discriminate|]. destruct (Nat.eq_dec d c) as [-> |N]; [left; eexists; reflexivity|right; intros ts H; injection H as H _; contradiction]. }
  destruct D as [(ts & D)|D]; [exact (HD h x ts R A D)|]. destruct A as (l & L & C). destruct (work_keeps x i c l IV L C D) as (A & W & (o & O)). destruct (work_rest x t _ IV T) as (more & M).
  assert (R' : reached fp (h ++ [EWork]) (work x)). { unfold reached in *. rewrite run_app, R. reflexivity. }
  destruct (IH _ (work x) (post ++ more) R' A) as (m & y & o' & H1 & H2 & H3 & H4). { rewrite M, <- app_assoc. reflexivity. }
  exists (S m), y, (o ++ o'). cbn [repeat run step]. split; [exact H1|]. split; [exact H2|]. split; [rewrite H3, O, <- app_assoc; reflexivity|]. intros r I. rewrite !in_app_iff. rewrite W in H4. destruct (H4 r I); tauto.
Qed.
Lemma done_queues fp h x c ok : reached fp h x -> waiting x c <> [] -> (exists k op, x_chans x c = Some k /\ k_put k = Some op /\ (po_built op = true \/ ok = false)) ->
  exists y, step fp x (EDone c ok) = Some y /\ x_tasks y = x_tasks x ++ [TAfter c] /\ waiting y c = waiting x c /\ (forall i, attached x i c -> attached y i c).
Proof.
  intros R W (k & op & K & O & B). exists (done c ok x). split; [reflexivity|]. unfold waiting in *. rewrite K in *. unfold done. rewrite K, O.
  assert (E : ok && negb (po_built op) = false) by (destruct B as [-> | ->]; [apply andb_false_r|reflexivity]). rewrite E. unfold put_done. rewrite K. cbv zeta.
  assert (NN : is_nil (k_after k) = false) by (destruct (k_after k); [contradiction|reflexivity]). rewrite NN.
  set (z := set_chan c (Some (k_with_put None (k_after k) k)) x). assert (Z : x_chans z c = Some (k_with_put None (k_after k) k)) by (cbn; rewrite Nat.eqb_refl; reflexivity).
  assert (T : x_tasks (if ok then put c false z else z) = x_tasks x). { destruct ok; [|reflexivity]. unfold put. rewrite Z. cbv zeta. destruct (_ || _); reflexivity. }
  cbn [set_tasks x_tasks x_chans x_links]. split; [rewrite T; reflexivity|]. split.
  - destruct ok; [|rewrite Z; reflexivity]. destruct (put_chan c false z _ Z) as (k' & -> & _ & -> & _). reflexivity.
  - intros i (l & L & C). unfold attached. cbn [set_tasks x_links]. destruct ok; [|exists l; tauto]. rewrite (put_links c false z _ i Z). cbn [x_links z set_chan]. rewrite L. destruct (existsb _ _); [|exists l; tauto]. exists (used l). split; [reflexivity|]. unfold used. destruct (l_scratch l); exact C.
Qed.
